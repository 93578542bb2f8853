(** Specification strings with the same clauses, arranged differently: what
    they accept and whether they convert. *)

From Coq Require Import List ZArith NArith String Bool Lia.
From Verif Require Import Py Segments Version VersionSets Operators SetStrings Specifiers Regex Patterns Parsers Spec
  OrderFacts OperatorFacts SpecifierFacts Grammar Clauses SpecParse SpecStrings SpecMeaning DecideSpec DecideFacts ArrangeSpec.
Import ListNotations.
Local Open Scope Z_scope.
Local Opaque key depth.

Theorem widened_accepts s s' css css' p p' v : specification s css -> specification s' css' -> widened css css' ->
  parse_specifier s = Ok p -> parse_specifier s' = Ok p' -> accepts p v = Ok true -> accepts p' v = Ok true.
Proof.
  intros S S' W P P' A. destruct (parsed_accepts s css p v S P) as (b & B & K). destruct (parsed_accepts s' css' p' v S' P') as (b' & B' & K').
  rewrite A in B. injection B as <-. rewrite B'. f_equal. apply K'. pose proof (proj1 K eq_refl) as X.
  apply Exists_exists in X as (cs & I & F). destruct (W cs I) as (cs' & I' & J). apply Exists_exists. exists cs'. split; auto.
  rewrite Forall_forall in *. auto.
Qed.

Theorem arranged_accepts s s' css css' p p' v : specification s css -> specification s' css' -> widened css css' -> widened css' css ->
  parse_specifier s = Ok p -> parse_specifier s' = Ok p' -> accepts p v = accepts p' v.
Proof.
  intros S S' W W' P P'. pose proof (widened_accepts s s' css css' p p' v S S' W P P') as F. pose proof (widened_accepts s' s css' css p' p v S' S W' P' P) as G.
  destruct (parsed_accepts s css p v S P) as (b & B & _). destruct (parsed_accepts s' css' p' v S' P') as (b' & B' & _). rewrite B, B' in *.
  destruct b, b'; auto. symmetry. auto.
Qed.

Lemma each_clause (P : pstr -> Prop) css : Forall (Forall P) css <-> forall c, (exists cs, In cs css /\ In c cs) -> P c.
Proof.
  split.
  - intros F c (cs & I & J). rewrite Forall_forall in F. specialize (F cs I). rewrite Forall_forall in F. auto.
  - intros H. apply Forall_forall. intros cs I. apply Forall_forall. intros c J. eauto.
Qed.

Theorem arranged_parses s s' css css' : specification s css -> specification s' css' -> same_clauses css css' ->
  (exists p, parse_specifier s = Ok p) <-> exists p, parse_specifier s' = Ok p.
Proof.
  intros S S' C. rewrite (parses_iff s css S), (parses_iff s' css' S'), !each_clause. split; intros H c I; apply H; now apply C.
Qed.

Lemma each_group (P : op_type -> version -> Prop) (mk : list spec -> spec) ss : mk = AnyOf \/ mk = AllOf -> ss <> [] ->
  each_op P (grouped mk ss) <-> Forall (each_op P) ss.
Proof.
  intros K N. destruct (grouped_cases mk ss N) as [(s & -> & ->)|[L ->]].
  - split; [auto|]. intros H. now inversion H.
  - destruct K as [-> | ->]; [apply each_op_any|apply each_op_all].
Qed.

Lemma each_parsed (P : op_type -> version -> Prop) s css p : specification s css -> parse_specifier s = Ok p ->
  each_op P p <-> Forall (Forall (fun c => forall q, parse_specifier c = Ok q -> each_op P q)) css.
Proof.
  intros S H. rewrite (specification_ok s css p S) in H. destruct H as (xss & F & ->). destruct (specification_nonempty _ _ S) as [N G]. destruct (shaped_rows _ _ F N G) as [N' G'].
  unfold spec_of. rewrite each_group; [|auto|destruct xss; [congruence|discriminate]]. clear S N N' G. induction F as [|cs xs css xss H F IH].
  - cbn [map]. split; constructor.
  - inversion G' as [|? ? N G]; subst. cbn [map]. rewrite !Forall_cons_iff, IH by auto. apply and_iff_compat_r. rewrite each_group; [|auto|destruct xs; [congruence|discriminate]].
    clear - H. induction H as [|c x cs xs H F IH]; cbn [map]; [split; constructor|]. rewrite !Forall_cons_iff, IH. apply and_iff_compat_r.
    rewrite (proper_parse c x H). split; [now intros K q [= <-]|auto].
Qed.

(** Only the recursion may come between two arrangements. *)
Theorem arranged_sets s s' css css' a : specification s css -> specification s' css' -> widened css css' -> widened css' css -> same_clauses css css' ->
  parse_version_set s = Ok a ->
  parse_version_set s' = Err RecursionError \/ exists a', parse_version_set s' = Ok a' /\ set_eqb a a' = true.
Proof.
  intros S S' W W' C A. unfold parse_version_set in A. destruct (parse_specifier s) as [p|] eqn:P; [|discriminate]. cbn [bind] in A.
  destruct (proj1 (arranged_parses s s' css css' S S' C) (ex_intro _ p P)) as (p' & P'). destruct (parse_version_set s') as [a'|e] eqn:A'.
  - right. exists a'. split; auto. assert (B : parse_version_set s = Ok a) by (unfold parse_version_set; now rewrite P).
    destruct (decide_parsed s s' p p' a a' P P' B A') as (_ & _ & E & _). apply E. intros v _. exact (arranged_accepts s s' css css' p p' v S S' W W' P P').
  - left. unfold parse_version_set in A'. rewrite P' in A'. cbn [bind] in A'. destruct (parsed_made s p P) as [M N], (parsed_made s' p' P') as [M' N'].
    destruct (convert_errors p' M' N' e A') as [[-> F]|[-> _]]; auto. exfalso. apply F. destruct (convert_sound p M N a A) as (_ & _ & G).
    rewrite (each_parsed free_op s css p S P), each_clause in G. rewrite (each_parsed free_op s' css' p' S' P'), each_clause. intros c I. apply G. now apply C.
Qed.

Lemma one_row s cs p : specification s [cs] -> parse_specifier s = Ok p -> no_any p.
Proof.
  intros S H. rewrite (specification_ok s [cs] p S) in H. destruct H as (xss & F & ->). inversion F as [|? xs ? ? F1 F2]; subst. inversion F2; subst.
  unfold spec_of. cbn [map grouped]. clear. destruct xs as [|x [|y xs]]; cbn [map grouped]; cbn [no_any]; auto; try exact I.
  all: try (unfold clause_spec at 1; cbn [no_any]; exact I).
  split; [exact I|]. split; [exact I|]. induction xs as [|z xs IH]; [exact I|]. split; [exact I|exact IH].
Qed.

Theorem commas_sets s s' cs cs' a : specification s [cs] -> specification s' [cs'] -> (forall c, In c cs <-> In c cs') ->
  parse_version_set s = Ok a -> exists a', parse_version_set s' = Ok a' /\ set_eqb a a' = true.
Proof.
  intros S S' C A.
  assert (W : widened [cs] [cs']) by (intros x [<- | []]; exists cs'; split; [now left|]; intros c; apply C).
  assert (W' : widened [cs'] [cs]) by (intros x [<- | []]; exists cs; split; [now left|]; intros c; apply C).
  assert (K : same_clauses [cs] [cs']) by (intros c; split; intros (x & [<- | []] & I); eexists; (split; [now left|]); now apply C).
  destruct (arranged_sets s s' [cs] [cs'] a S S' W W' K A) as [E|H]; auto. exfalso.
  unfold parse_version_set in E. destruct (parse_specifier s') as [p'|e] eqn:P'; cbn [bind] in E.
  - destruct (parsed_made s' p' P') as [M' N']. destruct (convert_errors p' M' N' RecursionError E) as [[? _]|[_ F]]; [discriminate|]. apply F. exact (one_row s' cs' p' S' P').
  - unfold parse_version_set in A. destruct (parse_specifier s) as [p|] eqn:P; [|discriminate].
    destruct (proj1 (arranged_parses s s' [cs] [cs'] S S' K) (ex_intro _ p P)) as (p' & H). congruence.
Qed.
