(** What parsed specifications are and accept, and how parsing them fails. *)

From Coq Require Import List ZArith NArith String Bool Arith Lia.
From Verif Require Import Py Segments Version VersionSets Operators SetStrings Specifiers Regex Patterns Parsers Orders Spec OrderFacts OperatorFacts SpecifierFacts
  Grammar Clauses RegexFacts Unambiguous VersionRegex ParseFacts ParseTheorems ClauseRegex ClauseFacts SpecText SpecParse SpecStrings SpecFailures.
Import ListNotations.

(** ** Shapes *)

Lemma grouped_cases mk ss : ss <> [] -> (exists s, ss = [s] /\ grouped mk ss = s) \/ ((2 <= List.length ss)%nat /\ grouped mk ss = mk ss).
Proof. destruct ss as [|s [|u ss]]; [congruence|left; eauto|right]. cbn. split; [lia|reflexivity]. Qed.

Lemma shaped_rows css xss : Forall2 (Forall2 proper_clause) css xss -> css <> [] -> Forall (fun cs => cs <> []) css -> xss <> [] /\ Forall (fun xs => xs <> []) xss.
Proof.
  intros F N G. split; [destruct F; congruence|]. clear N. induction F as [|cs xs css xss H F IH]; constructor; inversion G; subst; auto. destruct H; congruence.
Qed.

Lemma parsed_one s p : parse_specifier s = Ok p -> (exists c x, proper_clause c x /\ p = clause_spec x) \/ (exists ss, p = AnyOf ss \/ p = AllOf ss).
Proof.
  intros H. apply parse_specifier_ok in H as (css & xss & S & F & ->). destruct (specification_nonempty _ _ S) as [N G]. destruct (shaped_rows _ _ F N G) as [N' G'].
  unfold spec_of. destruct xss as [|xs [|ys xss]]; [congruence| |right; eexists; left; reflexivity].
  cbn [map grouped]. inversion G'; subst. destruct xs as [|x [|y xs]]; [congruence| |right; eexists; right; reflexivity]. left.
  inversion F as [|cs ? ? ? F1 _]; subst. inversion F1 as [|c ? ? ? F2 _]; subst. exists c, x. split; auto.
Qed.

(** ** Printed forms *)

Theorem short_exact s p : parse_specifier s = Ok p -> parse_specifier (spec_to_short_string p) = match p with One _ _ => Ok p | _ => Err ParseSpecificationError end.
Proof.
  intros H. apply parsed_one in H as [(c & x & C & ->)|(ss & [-> | ->])]; [|apply paren_fails..].
  unfold clause_spec. cbn [spec_to_short_string]. apply short_string_parses. now apply proper_writable in C.
Qed.

Theorem long_exact s p : parse_specifier s = Ok p ->
  match p with
  | One t v => if candidate v then exists e, parse_specifier (spec_to_string p) = Err e else parse_specifier (spec_to_string p) = Ok p
  | _ => parse_specifier (spec_to_string p) = Err ParseSpecificationError
  end.
Proof.
  intros H. apply parsed_one in H as [(c & x & C & ->)|(ss & [-> | ->])]; [|apply paren_fails..].
  unfold clause_spec. cbn [spec_to_string]. apply proper_writable in C. destruct (candidate (reading (snd x))) eqn:E; [|now apply long_string_parses].
  apply candidate_fails; auto. apply C.
Qed.

(** ** Acceptance *)

Lemma clause_made c x : proper_clause c x -> spec_made (clause_spec x) /\ each_op plain_op (clause_spec x).
Proof. intros C. apply proper_writable in C as ((_ & _ & R & _) & M & _). split; [exact M|exact R]. Qed.

Lemma grouped_made (mk : list spec -> spec) ss : (mk = AnyOf \/ mk = AllOf) -> ss <> [] -> Forall spec_made ss -> Forall (each_op plain_op) ss ->
  spec_made (grouped mk ss) /\ each_op plain_op (grouped mk ss).
Proof.
  intros K N F G. destruct (grouped_cases mk ss N) as [(s & -> & ->)|[L ->]]; [inversion F; inversion G; auto|].
  destruct K as [-> | ->]; [rewrite made_any, each_op_any|rewrite made_all, each_op_all]; auto.
Qed.

Theorem parsed_made s p : parse_specifier s = Ok p -> spec_made p /\ each_op plain_op p.
Proof.
  intros H. apply parse_specifier_ok in H as (css & xss & S & F & ->). destruct (specification_nonempty _ _ S) as [N G]. destruct (shaped_rows _ _ F N G) as [N' G'].
  assert (K : Forall (fun xs => spec_made (grouped AllOf (map clause_spec xs)) /\ each_op plain_op (grouped AllOf (map clause_spec xs))) xss).
  { clear - F G'. induction F as [|cs xs css xss H F IH]; constructor; inversion G'; subst; auto.
    assert (E : Forall (fun s => spec_made s /\ each_op plain_op s) (map clause_spec xs)).
    { clear - H. induction H as [|c x cs xs H F IH]; constructor; auto. now apply clause_made in H. }
    apply grouped_made; auto; [destruct xs; [congruence|discriminate]|..]; (eapply Forall_impl; [|exact E]; cbn beta; tauto). }
  apply grouped_made; auto; [destruct xss; [congruence|discriminate]|..]; apply Forall_map; (eapply Forall_impl; [|exact K]; cbn beta; tauto).
Qed.

Lemma grouped_any ss v : ss <> [] -> sat (grouped AnyOf ss) v <-> Exists (fun s => sat s v) ss.
Proof.
  intros N. destruct (grouped_cases AnyOf ss N) as [(s & -> & ->)|[_ ->]]; [|apply sat_any]. rewrite Exists_cons, Exists_nil. tauto.
Qed.
Lemma grouped_all ss v : ss <> [] -> sat (grouped AllOf ss) v <-> Forall (fun s => sat s v) ss.
Proof.
  intros N. destruct (grouped_cases AllOf ss N) as [(s & -> & ->)|[_ ->]]; [|apply sat_all]. rewrite Forall_cons_iff. intuition.
Qed.

Lemma accepts_iff s v : spec_made s -> accepts s v = Ok true <-> sat s v.
Proof. intros M. destruct (accepts_sat s v M) as (b & -> & H). rewrite <- H. split; congruence. Qed.

(** A clause, on its own, accepts a version. *)
Definition takes (c : pstr) (v : version) : Prop := exists q, parse_specifier c = Ok q /\ accepts q v = Ok true.

Lemma takes_clause c x v : proper_clause c x -> takes c v <-> sat (clause_spec x) v.
Proof.
  intros C. pose proof (proper_parse c x C) as P. destruct (clause_made c x C) as [M _]. rewrite <- (accepts_iff _ v M). unfold takes. rewrite P. split; [|eauto].
  intros (q & [= <-] & H). exact H.
Qed.

Theorem parsed_accepts s css p v : specification s css -> parse_specifier s = Ok p ->
  exists b, accepts p v = Ok b /\ (b = true <-> Exists (fun cs => Forall (fun c => takes c v) cs) css).
Proof.
  intros S H. destruct (parsed_made s p H) as [M _]. destruct (accepts_sat p v M) as (b & E & B). exists b. split; auto. rewrite B. clear B E M b.
  rewrite (specification_ok s css p S) in H. destruct H as (xss & F & ->). destruct (specification_nonempty _ _ S) as [N G]. destruct (shaped_rows _ _ F N G) as [N' G'].
  unfold spec_of. rewrite grouped_any by (destruct xss; [congruence|discriminate]). clear N N' S G. induction F as [|cs xs css xss H F IH].
  - cbn [map]. rewrite !Exists_nil. tauto.
  - inversion G' as [|? ? N G]; subst. cbn [map]. rewrite !Exists_cons, IH by auto. apply or_iff_compat_r. rewrite grouped_all by (destruct xs; [congruence|discriminate]).
    clear - H. induction H as [|c x cs xs H F IH]; cbn [map]; [split; constructor|]. now rewrite !Forall_cons_iff, IH, (takes_clause c x v H).
Qed.

Theorem parses_iff s css : specification s css -> (exists p, parse_specifier s = Ok p) <-> Forall (Forall (fun c => exists q, parse_specifier c = Ok q)) css.
Proof.
  intros S. split.
  - intros (p & H). rewrite (specification_ok s css p S) in H. destruct H as (xss & F & _). clear - F. induction F as [|cs xs css xss H F IH]; constructor; auto.
    clear - H. induction H as [|c x cs xs H F IH]; constructor; auto. apply proper_parse in H. eauto.
  - intros F. assert (X : exists xss, Forall2 (Forall2 proper_clause) css xss).
    { destruct S as (c & cs & al & E & U & _). clear - F U. induction F as [|cs css H F IH]; [exists []; constructor|]. inversion U as [|? ? U1 U2]; subst. destruct (IH U2) as (xss & X).
      assert (Y : exists xs, Forall2 proper_clause cs xs).
      { clear - H U1. induction H as [|c cs (q & H) F IH]; [exists []; constructor|]. inversion U1 as [|? ? [N V] U2]; subst. destruct (IH U2) as (xs & X). rewrite single_parse in H by auto.
        apply single_ok in H as (x & P & _). exists (x :: xs). now constructor. }
      destruct Y as (xs & Y). exists (xs :: xss). now constructor. }
    destruct X as (xss & X). exists (spec_of xss). apply (specification_ok s css _ S). eauto.
Qed.

(** The clauses of a string are determined. *)
Theorem specification_unique s css css' : specification s css -> specification s css' -> css = css'.
Proof.
  assert (K : forall css, specification s css -> css = map (split_on 44) (split_pipes (visible s))).
  { clear. intros css (c & cs & al & -> & F & R). apply respaced_visible in R. rewrite R.
    assert (G : Forall (fun cs => Forall (fun c => Forall (fun x => x <> 44%N) c /\ Forall (fun x => x <> 124%N) c /\ Forall (fun x => is_space x = false) c) cs)
      ((c :: cs) :: map (fun x => fst (snd x) :: snd (snd x)) al)).
    { eapply Forall_impl; [|exact F]. intros xs H. eapply Forall_impl; [|exact H]. intros x [_ U]. split; [|split]; (eapply Forall_impl; [|exact U]; cbn beta); [tauto..|].
      intros y (_ & _ & W). destruct (is_space y) eqn:E; auto. now apply white_iff in E. }
    inversion G as [|? ? G1 G2]; subst. rewrite Forall_map in G2. inversion F as [|? ? F1 F2]; subst. rewrite Forall_map in F2.
    assert (C : forall (P : N -> Prop) c cs, P 44%N -> Forall (fun c => Forall P c) (c :: cs) -> Forall P (conjuncts c cs)) by (intros; apply conjuncts_forall; auto).
    rewrite visible_fixed.
    - rewrite split_alternatives.
      + cbn [map]. rewrite !map_map. cbn [snd]. f_equal; [symmetry; apply split_conjuncts; eapply Forall_impl; [|exact G1]; cbn beta; tauto|].
        apply map_ext_in. intros x X. rewrite Forall_forall in G2. apply G2 in X. symmetry. apply split_conjuncts. eapply Forall_impl; [|exact X]. cbn beta. tauto.
      + apply C; [discriminate|]. eapply Forall_impl; [|exact G1]. cbn beta. tauto.
      + apply Forall_map. cbn [snd]. apply Forall_forall. intros x X. rewrite Forall_forall in G2, F2. split.
        * apply C; [discriminate|]. apply G2 in X. eapply Forall_impl; [|exact X]. cbn beta. tauto.
        * apply conjuncts_nonempty. apply F2 in X. inversion X; tauto.
    - apply alternatives_forall; [reflexivity|]. rewrite map_map. cbn [snd]. constructor.
      + apply C; [reflexivity|]. eapply Forall_impl; [|exact G1]. cbn beta. tauto.
      + apply Forall_map. eapply Forall_impl; [|exact G2]. cbn beta. intros x X. apply C; [reflexivity|]. eapply Forall_impl; [|exact X]. cbn beta. tauto. }
  intros A B. now rewrite (K _ A), (K _ B).
Qed.

(** ** Failures *)

Lemma left_edge_app a b : left_edge a -> left_edge b -> left_edge (a ++ b).
Proof. intros A [-> |(x & c & -> & C)]; [now rewrite app_nil_r|]. right. exists (a ++ x), c. split; auto. now rewrite app_assoc. Qed.
Lemma right_edge_app a b : right_edge a -> right_edge b -> right_edge (a ++ b).
Proof. intros [-> |(c & x & -> & C)] B; auto. right. exists c, (x ++ b). auto. Qed.

Lemma conjuncts_piece cs : forall c x, In x (c :: cs) -> exists a b, conjuncts c cs = a ++ x ++ b /\ left_edge a /\ right_edge b.
Proof.
  induction cs as [|d cs IH]; intros c x H.
  - destruct H as [<-|[]]. exists [], []. cbn [conjuncts app]. rewrite app_nil_r. split; auto. split; now left.
  - cbn [conjuncts]. destruct H as [<-|H].
    + exists [], ([44%N] ++ conjuncts d cs). split; auto. split; [now left|]. right. eexists _, _. split; [reflexivity|auto].
    + destruct (IH d x H) as (a & b & -> & A & B). exists ((c ++ [44%N]) ++ a), b. split; [now rewrite <- !app_assoc|]. split; auto. apply left_edge_app; auto. right. eexists _, _. split; [reflexivity|auto].
Qed.

Lemma alternatives_piece cs : forall c x, In x (c :: map snd cs) -> exists a b, alternatives c cs = a ++ x ++ b /\ left_edge a /\ right_edge b.
Proof.
  induction cs as [|[k d] cs IH]; intros c x H.
  - destruct H as [<-|[]]. exists [], []. cbn [alternatives app]. rewrite app_nil_r. split; auto. split; now left.
  - cbn [alternatives map snd] in *. destruct H as [<-|H].
    + exists [], ((if k then [124; 124] else [124])%N ++ alternatives d cs). split; auto. split; [now left|]. right. destruct k; eexists _, _; (split; [reflexivity|auto]).
    + destruct (IH d x H) as (a & b & -> & A & B). exists ((c ++ if k then [124; 124] else [124])%N ++ a), b. split; [now rewrite <- !app_assoc|]. split; auto. apply left_edge_app; auto.
      right. destruct k; [exists (c ++ [124%N]), 124%N; rewrite <- app_assoc; auto|exists c, 124%N; auto].
Qed.

Theorem failure_piece s e : parse_specifier s = Err e -> exists c, piece c s /\ parse_single c = Err e.
Proof.
  unfold parse_specifier, parse_any. rewrite clear_visible. destruct (alternatives_split (visible s)) as (c & cs & E & A & _). rewrite E.
  destruct (mapM parse_all _) as [|e'] eqn:M; [discriminate|]. cbn [bind]. intros [= ->]. apply mapM_err, Exists_exists in M as (x & X & M).
  destruct (conjuncts_split x) as (d & ds & E' & A' & _). unfold parse_all in M. rewrite E' in M.
  destruct (mapM parse_single _) as [|e'] eqn:M'; [discriminate|]. cbn [bind] in M. injection M as ->.
  apply mapM_err, Exists_exists in M' as (y & Y & M'). exists y. split; auto.
  destruct (alternatives_piece cs c x X) as (a & b & Ea & La & Rb). destruct (conjuncts_piece ds d y Y) as (a' & b' & Ea' & La' & Rb').
  exists (a ++ a'), (b' ++ b). split; [|split; [now apply left_edge_app|now apply right_edge_app]].
  apply respaced_visible. rewrite <- (visible_idem s), A, Ea, A', Ea', <- !app_assoc. reflexivity.
Qed.

Theorem parse_errors s e : parse_specifier s = Err e ->
  e = ParseSpecificationError \/ e = ParseVersionError
  \/ (e = ValueError /\ exists c t v, piece c s /\ clause c t v /\ (~ lower_case v \/ (t = TILDE_EQUAL /\ g_more v = []))).
Proof.
  intros H. apply failure_piece in H as (c & P & H). apply single_err in H as [(-> & t & v & C & K)|[[-> _]|[-> _]]]; auto. right; right. split; auto. exists c, t, v. auto.
Qed.

Theorem set_errors s e : parse_version_set s = Err e ->
  parse_specifier s = Err e \/ exists p, parse_specifier s = Ok p
    /\ ((e = ValueError /\ ~ each_op free_op p) \/ (e = RecursionError /\ ~ no_any p)).
Proof.
  unfold parse_version_set. destruct (parse_specifier s) as [p|e'] eqn:P; cbn [bind]; [|intros [= ->]; auto]. intros H. right. exists p. split; auto.
  destruct (parsed_made s p P) as [M N]. now apply (convert_errors p M N).
Qed.

Lemma clause_chars s t v c : clause s t v -> In c (text v) -> In c s \/ c = 48%N.
Proof.
  intros [o O T -> |o O T G -> |o w u O C W T ->] H; rewrite in_app_iff; auto. apply tree_loose in T as [L _]. destruct (wild_plain w v u W L) as (a & E & -> & _).
  rewrite E in H. apply in_app_iff in H as [H|[<-|[]]]; auto. rewrite in_app_iff. auto.
Qed.

Lemma piece_chars c s x : piece c s -> In x c -> is_space x = false -> In x s.
Proof.
  intros (a & b & R & _) H X. apply respaced_visible in R. assert (I : In x (visible s)).
  { rewrite R. unfold visible. apply filter_In. rewrite !in_app_iff, X. auto. }
  unfold visible in I. now apply filter_In in I.
Qed.

Theorem parse_fixed_errors s : (forall c a, In c s -> folds c a -> c = a) -> (forall c v, piece c s -> clause c TILDE_EQUAL v -> g_more v <> []) ->
  (exists p, parse_specifier s = Ok p) \/ parse_specifier s = Err ParseSpecificationError \/ parse_specifier s = Err ParseVersionError.
Proof.
  intros F G. destruct (parse_specifier s) as [p|e] eqn:E; [eauto|]. right. apply parse_errors in E as [-> |[-> |(-> & c & t & v & P & C & [L|[-> M]])]]; auto.
  - exfalso. apply L. apply fixed_lower; [now apply clause_tree in C|]. intros x a H X. apply (clause_chars c t v x C) in H as [H| ->].
    + apply (F x a); auto. apply (piece_chars c); auto. apply clause_inner in C as [_ U]. unfold unbroken in U. rewrite Forall_forall in U. apply U in H as (_ & _ & H).
      destruct (is_space x) eqn:Y; auto. now apply white_iff in Y.
    + unfold folds in X. lia.
  - exfalso. exact (G c v P C M).
Qed.

Theorem long_parses_back s t v : parse_specifier s = Ok (One t v) -> (forall u, v_pre v = Some u -> phase u <> lit "candidate") ->
  parse_specifier (spec_to_string (One t v)) = Ok (One t v).
Proof.
  intros H N. apply (long_exact s) in H. destruct (candidate v) eqn:C; auto. apply candidate_iff in C as (u & E & P). now destruct (N u E).
Qed.

Theorem compound_fails s p : parse_specifier s = Ok p -> (forall t v, p <> One t v) ->
  parse_specifier (spec_to_string p) = Err ParseSpecificationError /\ parse_specifier (spec_to_short_string p) = Err ParseSpecificationError.
Proof.
  intros H N. pose proof (long_exact s p H) as L. pose proof (short_exact s p H) as S. destruct p as [| |t v| |]; auto. now destruct (N t v).
Qed.

Theorem candidate_string_fails t v u : wf v -> v_pre v = Some u -> phase u = lit "candidate" -> exists e, parse_specifier (op_to_string t v) = Err e.
Proof. intros W E P. apply candidate_fails; auto. apply candidate_iff. eauto. Qed.

Theorem one_specification s p : parse_specifier s = Ok p -> exists css, specification s css /\ forall css', specification s css' -> css' = css.
Proof.
  intros H. destruct (parse_some s p H) as (css & S). exists css. split; auto. intros css' S'. exact (specification_unique s css' css S' S).
Qed.

Lemma tilde_char c v : clause c TILDE_EQUAL v -> In 126%N c.
Proof.
  intros [o O _ -> |o O _ _ -> |o w u O _ _ _ ->]; apply in_app_iff; left; cbn [equal_ops public_ops wild_ops In] in O;
    repeat (destruct O as [O|O]; [try discriminate; injection O as <-; cbn; tauto|]); destruct O.
Qed.
