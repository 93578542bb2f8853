(** The languages of the pattern texts, and what their groups capture. *)

From Coq Require Import List ZArith NArith String Bool.
From Verif Require Import Py Segments Version Regex Patterns RegexFacts Grammar Clauses Unambiguous VersionRegex ParseFacts ClauseRegex ClauseFacts
  AccessFacts SegmentSpec PatternText Compile PatternFacts.
Import ListNotations.

Lemma named_group g cs : group_of (group_name g) (named cs) = get_group g cs.
Proof.
  induction cs as [|[h s] cs IH]; [reflexivity|]. cbn [named map fst snd group_of get_group].
  assert (E : str_eqb (group_name h) (group_name g) = (group_index h =? group_index g)%N) by (destruct h, g; reflexivity).
  rewrite E. destruct (_ =? _)%N; [reflexivity|exact IH].
Qed.

Section Agreement.
  Variables (r : re) (t : pstr).
  Hypothesis A : agrees r t.

  Lemma agreed_some s m : fullmatch r s = Some m -> text_fullmatch t s = Some (Some (named m)).
  Proof. intros E. now rewrite A, E. Qed.

  Lemma agreed_none s : text_fullmatch t s = Some None <-> fullmatch r s = None.
  Proof. rewrite A. destruct (fullmatch r s); cbn [option_map]; split; congruence. Qed.

  Lemma agreed_inv s cs : text_fullmatch t s = Some (Some cs) -> exists m, fullmatch r s = Some m /\ cs = named m.
  Proof. rewrite A. destruct (fullmatch r s) as [m|]; cbn [option_map]; intros [= <-]. eauto. Qed.

  Lemma agreed_language s : (exists cs, text_fullmatch t s = Some (Some cs)) <-> exists ds, D r s ds.
  Proof.
    split.
    - intros (cs & H). apply agreed_inv in H as (m & H & _). apply fullmatch_sound in H. eauto.
    - intros (ds & H). apply fullmatch_complete in H as (m & H). exists (named m). now apply agreed_some.
  Qed.
End Agreement.

(** ** Versions *)

Theorem version_groups t : tree t -> exists cs, text_fullmatch VERSION_PATTERN (text t) = Some (Some cs)
  /\ group_of (lit "epoch") cs = g_epoch t
  /\ group_of (lit "release") cs = Some (release_text (g_first t) (g_more t))
  /\ group_of (lit "pre") cs = option_map tag_word (g_pre t)
  /\ group_of (lit "post_implicit") cs = match g_post t with Some (Implicit d) => Some d | _ => None end
  /\ group_of (lit "post") cs = match g_post t with Some (Explicit u) => Some (tag_word u) | _ => None end
  /\ group_of (lit "dev") cs = option_map tag_word (g_dev t)
  /\ group_of (lit "local") cs = option_map local_text (g_local t).
Proof.
  intros T. exists (named (all_caps t)). split; [apply (agreed_some _ _ version_text); now apply fullmatch_version|].
  change (group_of (group_name G_EPOCH) (named (all_caps t)) = g_epoch t
    /\ group_of (group_name G_RELEASE) (named (all_caps t)) = Some (release_text (g_first t) (g_more t))
    /\ group_of (group_name G_PRE) (named (all_caps t)) = option_map tag_word (g_pre t)
    /\ group_of (group_name G_POST_IMPLICIT) (named (all_caps t)) = match g_post t with Some (Implicit d) => Some d | _ => None end
    /\ group_of (group_name G_POST) (named (all_caps t)) = match g_post t with Some (Explicit u) => Some (tag_word u) | _ => None end
    /\ group_of (group_name G_DEV) (named (all_caps t)) = option_map tag_word (g_dev t)
    /\ group_of (group_name G_LOCAL) (named (all_caps t)) = option_map local_text (g_local t)).
  rewrite !named_group, get_epoch, get_release, get_pre, get_implicit, get_post, get_dev, get_local.
  repeat (split; [reflexivity|]). reflexivity.
Qed.

Theorem version_refused s : text_fullmatch VERSION_PATTERN s = Some None <-> ~ exists t, tree t /\ text t = s.
Proof. rewrite (agreed_none _ _ version_text). apply fullmatch_version_none. Qed.

Theorem public_language s : (exists cs, text_fullmatch PUBLIC_VERSION_PATTERN s = Some (Some cs)) <-> exists t, tree t /\ g_local t = None /\ text t = s.
Proof.
  rewrite (agreed_language _ _ public_version_text), D_public_tree. split; intros (t & T & G & E); exists t; auto.
Qed.

Theorem wildcard_language s : (exists cs, text_fullmatch WILDCARD_VERSION_PATTERN s = Some (Some cs))
  <-> exists c t u, (c = 42 \/ c = 120 \/ c = 88)%N /\ wild c t u /\ tree t /\ text u = s.
Proof.
  rewrite (agreed_language _ _ wildcard_version_text). split.
  - intros (ds & H). apply wild_iff in H as [(c & t & u & C & W & T & ->) _]. exists c, t, u. auto.
  - intros (c & t & u & C & W & T & <-). exists []. apply wild_iff. split; [|reflexivity]. exists c, t, u. auto.
Qed.

(** ** Tags *)

Theorem tag_groups w d : w <> [] -> Forall letter w -> opt (fun x => opt separator (fst x) /\ digits (snd x)) d ->
  exists cs, text_fullmatch TAG_PATTERN (w ++ spell (fun x => one (fst x) ++ snd x) d) = Some (Some cs)
  /\ group_of (lit "phase") cs = Some w /\ group_of (lit "value") cs = option_map snd d.
Proof.
  intros N F X. assert (L : letters w) by now apply letters_iff.
  pose proof (fullmatch_TAG w d L X) as E. exists (named (match d with None => [] | Some x => [(G_VALUE, snd x)] end ++ [(G_PHASE, w)])).
  split; [exact (agreed_some _ _ tag_text _ _ E)|]. now destruct d.
Qed.

Theorem tag_refused s : text_fullmatch TAG_PATTERN s = Some None
  <-> ~ exists w d, w <> [] /\ Forall letter w /\ opt (fun x => opt separator (fst x) /\ digits (snd x)) d /\ s = w ++ spell (fun x => one (fst x) ++ snd x) d.
Proof.
  rewrite (agreed_none _ _ tag_text). split.
  - intros E (w & d & N & F & X & ->). assert (L : letters w) by now apply letters_iff. pose proof (fullmatch_TAG w d L X) as M.
    change (value_text d) with (spell (fun x => one (fst x) ++ snd x) d) in M. congruence.
  - intros H. destruct (fullmatch TAG s) as [m|] eqn:E; [|reflexivity]. exfalso. apply fullmatch_sound, D_TAG in E as (w & d & L & X & -> & _).
    apply H. apply letters_iff in L as [N F]. exists w, d. auto.
Qed.

(** ** Specifications *)

Section Operator.
  Variable ops : list pstr.
  Hypothesis ops_sym : forall o, In o ops -> o <> [] /\ forallb sym o = true.
  Hypothesis ops_some : ops <> [].
  Variable R : re.
  Hypothesis R_head : forall u ds, D R u ds -> stops sym u.
  Hypothesis R_groups : ~ In (group_index G_OPERATOR) (groups R).

  Lemma operator_groups s o u : (exists m, fullmatch (Cat (Grp G_OPERATOR (alts ops)) (Grp G_VERSION R)) s = Some m
      /\ get_group G_OPERATOR m = Some o /\ get_group G_VERSION m = Some u)
    <-> In o ops /\ (exists ds, D R u ds) /\ s = o ++ u.
  Proof.
    split.
    - intros (m & E & O & U). pose proof E as E'. apply fullmatch_sound in E'. apply D_cat_iff in E' as (w1 & w2 & d1 & d2 & -> & _ & H1 & H2).
      apply (D_operator ops ops_sym ops_some) in H1 as [H1 _]. apply D_grp_iff in H2 as (es & _ & H2).
      destruct (operator_match ops ops_sym ops_some R R_head R_groups w1 w2 es H1 H2) as (m' & M & M1 & M2).
      rewrite M in E. injection E as ->. rewrite M1 in O. injection O as ->. rewrite M2 in U. injection U as ->. eauto.
    - intros (O & (ds & H) & ->). destruct (operator_match ops ops_sym ops_some R R_head R_groups o u ds O H) as (m & M). exists m. tauto.
  Qed.

  Lemma optional_groups s o u : (exists m, fullmatch (Cat (Opt (Grp G_OPERATOR (alts ops))) (Grp G_VERSION R)) s = Some m
      /\ get_group G_OPERATOR m = o /\ get_group G_VERSION m = Some u)
    <-> opt (fun o => In o ops) o /\ (exists ds, D R u ds) /\ s = spell (fun o => o) o ++ u.
  Proof.
    split.
    - intros (m & E & O & U). pose proof E as E'. apply fullmatch_sound in E'. apply D_cat_iff in E' as (w1 & w2 & d1 & d2 & -> & _ & H1 & H2).
      apply D_grp_iff in H2 as (es & _ & H2).
      assert (W : w1 = [] \/ In w1 ops) by (apply D_opt_iff in H1 as [H1|[-> _]]; [right; now apply (D_operator ops ops_sym ops_some) in H1 as [H1 _]|now left]).
      destruct (optional_match ops ops_sym ops_some R R_head R_groups w1 w2 es W H2) as (m' & M & M1 & M2).
      rewrite M in E. injection E as ->. rewrite M1 in O. rewrite M2 in U. injection U as ->. subst o. split; [|split; [eauto|]].
      + destruct w1; cbn [given opt]; [exact I|]. destruct W as [W|W]; [discriminate|exact W].
      + destruct w1; reflexivity.
    - intros (O & (ds & H) & ->). destruct o as [o|]; cbn [opt spell] in *.
      + destruct (optional_match ops ops_sym ops_some R R_head R_groups o u ds (or_intror O) H) as (m & M & M1 & M2). exists m.
        split; [exact M|]. split; [|exact M2]. rewrite M1. destruct o; [now apply ops_sym in O|reflexivity].
      + destruct (optional_match ops ops_sym ops_some R R_head R_groups [] u ds (or_introl eq_refl) H) as (m & M & M1 & M2). exists m. auto.
  Qed.
End Operator.

Lemma text_groups r t s o u : agrees r t ->
  (exists cs, text_fullmatch t s = Some (Some cs) /\ group_of (lit "operator") cs = o /\ group_of (lit "version") cs = u)
  <-> exists m, fullmatch r s = Some m /\ get_group G_OPERATOR m = o /\ get_group G_VERSION m = u.
Proof.
  intros A. change (lit "operator") with (group_name G_OPERATOR). change (lit "version") with (group_name G_VERSION). split.
  - intros (cs & E & O & U). apply (agreed_inv _ _ A) in E as (m & E & ->). rewrite named_group in O, U. eauto.
  - intros (m & E & O & U). exists (named m). split; [now apply (agreed_some _ _ A)|]. now rewrite !named_group.
Qed.

Lemma public_clauses r t ops s o u : r = Cat (Grp G_OPERATOR (alts ops)) (Grp G_VERSION PUBLIC_VERSION) -> agrees r t -> ops <> [] ->
  forallb (fun o => negb (str_eqb o []) && forallb sym o) ops = true ->
  (exists cs, text_fullmatch t s = Some (Some cs) /\ group_of (lit "operator") cs = Some o /\ group_of (lit "version") cs = Some u)
  <-> In o ops /\ (exists v, tree v /\ g_local v = None /\ text v = u) /\ s = o ++ u.
Proof.
  intros -> A N S. rewrite (text_groups _ _ s (Some o) (Some u) A), (operator_groups ops (strs_sym ops S) N PUBLIC_VERSION public_head public_no_operator), D_public_tree.
  split; intros (O & (v & T & G & E) & X); (split; [exact O|]); (split; [|exact X]); exists v; auto.
Qed.

Theorem order_groups s o u :
  (exists cs, text_fullmatch ORDER_SPECIFICATION_PATTERN s = Some (Some cs) /\ group_of (lit "operator") cs = Some o /\ group_of (lit "version") cs = Some u)
  <-> In o (map lit ["<="; ">="; "<"; ">"]%string) /\ (exists v, tree v /\ g_local v = None /\ text v = u) /\ s = o ++ u.
Proof. apply (public_clauses ORDER_SPECIFICATION _ [lit "<="; lit ">="; lit "<"; lit ">"]); [reflexivity|exact order_text|discriminate|reflexivity]. Qed.

Theorem caret_groups s o u :
  (exists cs, text_fullmatch CARET_SPECIFICATION_PATTERN s = Some (Some cs) /\ group_of (lit "operator") cs = Some o /\ group_of (lit "version") cs = Some u)
  <-> In o (map lit ["^"]%string) /\ (exists v, tree v /\ g_local v = None /\ text v = u) /\ s = o ++ u.
Proof. apply (public_clauses CARET_SPECIFICATION _ [lit "^"]); [reflexivity|exact caret_text|discriminate|reflexivity]. Qed.

Theorem tilde_groups s o u :
  (exists cs, text_fullmatch TILDE_SPECIFICATION_PATTERN s = Some (Some cs) /\ group_of (lit "operator") cs = Some o /\ group_of (lit "version") cs = Some u)
  <-> In o (map lit ["~="; "~"]%string) /\ (exists v, tree v /\ g_local v = None /\ text v = u) /\ s = o ++ u.
Proof. apply (public_clauses TILDE_SPECIFICATION _ [lit "~="; lit "~"]); [reflexivity|exact tilde_text|discriminate|reflexivity]. Qed.

Theorem equal_groups s o u :
  (exists cs, text_fullmatch EQUAL_SPECIFICATION_PATTERN s = Some (Some cs) /\ group_of (lit "operator") cs = o /\ group_of (lit "version") cs = Some u)
  <-> opt (fun o => In o (map lit ["=="; "="; "!="]%string)) o /\ (exists v, tree v /\ text v = u) /\ s = spell (fun o => o) o ++ u.
Proof.
  rewrite (text_groups _ _ s o (Some u) equal_text), (optional_groups eq_strs eq_strs_ok eq_strs_some VERSION version_head version_no_operator), D_version_tree.
  split; intros (O & (v & T & E) & X); (split; [exact O|]); (split; [|exact X]); exists v; auto.
Qed.

Theorem wildcard_groups s o u :
  (exists cs, text_fullmatch WILDCARD_SPECIFICATION_PATTERN s = Some (Some cs) /\ group_of (lit "operator") cs = o /\ group_of (lit "version") cs = Some u)
  <-> opt (fun o => In o (map lit ["=="; "="; "!="]%string)) o
      /\ (exists c v w, (c = 42 \/ c = 120 \/ c = 88)%N /\ wild c v w /\ tree v /\ text w = u) /\ s = spell (fun o => o) o ++ u.
Proof.
  rewrite (text_groups _ _ s o (Some u) wildcard_text), (optional_groups eq_strs eq_strs_ok eq_strs_some WILDCARD_VERSION wildcard_head wildcard_no_operator).
  assert (L : (exists ds, D WILDCARD_VERSION u ds) <-> exists c v w, (c = 42 \/ c = 120 \/ c = 88)%N /\ wild c v w /\ tree v /\ text w = u).
  { split.
    - intros (ds & H). apply wild_iff in H as [(c & t & w & C & W & T & ->) _]. exists c, t, w. auto.
    - intros (c & t & w & C & W & T & <-). exists []. apply wild_iff. split; [|reflexivity]. exists c, t, w. auto. }
  now rewrite L.
Qed.

(** Every match of a specification captures a version, and an operator where
    there must be one. *)
Lemma operator_total ops R t s cs : (forall o, In o ops -> o <> [] /\ forallb sym o = true) -> ops <> [] ->
  (forall u ds, D R u ds -> stops sym u) -> ~ In (group_index G_OPERATOR) (groups R) ->
  agrees (Cat (Grp G_OPERATOR (alts ops)) (Grp G_VERSION R)) t -> text_fullmatch t s = Some (Some cs) ->
  group_of (lit "operator") cs <> None /\ group_of (lit "version") cs <> None.
Proof.
  intros S N H G A E. apply (agreed_inv _ _ A) in E as (m & E & ->). change (lit "operator") with (group_name G_OPERATOR). change (lit "version") with (group_name G_VERSION).
  rewrite !named_group. pose proof E as E'. apply fullmatch_sound in E'. apply D_cat_iff in E' as (w1 & w2 & d1 & d2 & -> & _ & H1 & H2).
  apply (D_operator ops S N) in H1 as [H1 _]. apply D_grp_iff in H2 as (es & _ & H2).
  destruct (operator_match ops S N R H G w1 w2 es H1 H2) as (m' & M & M1 & M2).
  rewrite M in E. injection E as ->. rewrite M1, M2. split; discriminate.
Qed.

Lemma optional_total ops R t s cs : (forall o, In o ops -> o <> [] /\ forallb sym o = true) -> ops <> [] ->
  (forall u ds, D R u ds -> stops sym u) -> ~ In (group_index G_OPERATOR) (groups R) ->
  agrees (Cat (Opt (Grp G_OPERATOR (alts ops))) (Grp G_VERSION R)) t -> text_fullmatch t s = Some (Some cs) ->
  group_of (lit "version") cs <> None.
Proof.
  intros S N H G A E. apply (agreed_inv _ _ A) in E as (m & E & ->). change (lit "version") with (group_name G_VERSION).
  rewrite !named_group. pose proof E as E'. apply fullmatch_sound in E'. apply D_cat_iff in E' as (w1 & w2 & d1 & d2 & -> & _ & H1 & H2).
  apply D_grp_iff in H2 as (es & _ & H2).
  assert (W : w1 = [] \/ In w1 ops) by (apply D_opt_iff in H1 as [H1|[-> _]]; [right; now apply (D_operator ops S N) in H1 as [H1 _]|now left]).
  destruct (optional_match ops S N R H G w1 w2 es W H2) as (m' & M & M1 & M2).
  rewrite M in E. injection E as ->. rewrite M2. discriminate.
Qed.

Theorem operator_captured t s cs : In t [ORDER_SPECIFICATION_PATTERN; CARET_SPECIFICATION_PATTERN; TILDE_SPECIFICATION_PATTERN] ->
  text_fullmatch t s = Some (Some cs) -> group_of (lit "operator") cs <> None /\ group_of (lit "version") cs <> None.
Proof.
  intros T. assert (X : exists ops, forallb (fun o => negb (str_eqb o []) && forallb sym o) ops = true /\ ops <> []
    /\ agrees (Cat (Grp G_OPERATOR (alts ops)) (Grp G_VERSION PUBLIC_VERSION)) t).
  { destruct T as [<-|[<-|[<-|[]]]];
      [exists [lit "<="; lit ">="; lit "<"; lit ">"]|exists [lit "^"]|exists [lit "~="; lit "~"]];
      (split; [reflexivity|]); (split; [discriminate|]); [exact order_text|exact caret_text|exact tilde_text]. }
  destruct X as (ops & S & N & A). now apply (operator_total ops PUBLIC_VERSION t s cs (strs_sym ops S) N public_head public_no_operator).
Qed.

Theorem version_captured t s cs : In t [EQUAL_SPECIFICATION_PATTERN; WILDCARD_SPECIFICATION_PATTERN] ->
  text_fullmatch t s = Some (Some cs) -> group_of (lit "version") cs <> None.
Proof.
  intros [<-|[<-|[]]].
  - exact (optional_total eq_strs VERSION _ s cs eq_strs_ok eq_strs_some version_head version_no_operator equal_text).
  - exact (optional_total eq_strs WILDCARD_VERSION _ s cs eq_strs_ok eq_strs_some wildcard_head wildcard_no_operator wildcard_text).
Qed.

(** The texts and the expressions of Patterns.v. *)
Theorem all_agree s :
  text_fullmatch TAG_PATTERN s = Some (option_map named (fullmatch TAG s))
  /\ text_fullmatch PUBLIC_VERSION_PATTERN s = Some (option_map named (fullmatch PUBLIC_VERSION s))
  /\ text_fullmatch VERSION_PATTERN s = Some (option_map named (fullmatch VERSION s))
  /\ text_fullmatch WILDCARD_VERSION_PATTERN s = Some (option_map named (fullmatch WILDCARD_VERSION s))
  /\ text_fullmatch WILDCARD_SPECIFICATION_PATTERN s = Some (option_map named (fullmatch WILDCARD_SPECIFICATION s))
  /\ text_fullmatch ORDER_SPECIFICATION_PATTERN s = Some (option_map named (fullmatch ORDER_SPECIFICATION s))
  /\ text_fullmatch CARET_SPECIFICATION_PATTERN s = Some (option_map named (fullmatch CARET_SPECIFICATION s))
  /\ text_fullmatch TILDE_SPECIFICATION_PATTERN s = Some (option_map named (fullmatch TILDE_SPECIFICATION s))
  /\ text_fullmatch EQUAL_SPECIFICATION_PATTERN s = Some (option_map named (fullmatch EQUAL_SPECIFICATION s)).
Proof.
  split; [exact (tag_text s)|]. split; [exact (public_version_text s)|]. split; [exact (version_text s)|]. split; [exact (wildcard_version_text s)|].
  split; [exact (wildcard_text s)|]. split; [exact (order_text s)|]. split; [exact (caret_text s)|]. split; [exact (tilde_text s)|exact (equal_text s)].
Qed.
