(** Theorems about reading and writing versions: C07-C13. *)

From Coq Require Import List ZArith NArith String Bool.
From Verif Require Import Py Segments Version Parsers Spec Grammar Unambiguous ParseTheorems.
Import ListNotations.
Open Scope Z_scope.

(** 1!2.0-beta.3-rev.0-dev.4+ubuntu.7 *)
Definition full : version :=
  Version 1 [2; 0] (Some (Tag (lit "beta") 3)) (Some (Tag (lit "rev") 0)) (Some (Tag (lit "dev") 4))
    (Some [LStr (lit "ubuntu"); LInt 7]).
Definition candidate_of (r : list Z) (n : Z) : version := Version 0 r (Some (Tag (lit "candidate") n)) None None None.

(** ** C07 *)

Theorem C07_round_trip_partial v : wf v -> (forall t, v_pre v = Some t -> phase t <> lit "candidate") ->
  parse_version (to_string v) = Ok v.
Proof. intros W H. apply parse_long; auto. unfold candidate. destruct (v_pre v) as [t|]; auto.
  destruct (str_eqb (phase t) (lit "candidate")) eqn:E; auto. apply Orders.str_eqb_eq in E. now apply H in E. Qed.
Print Assumptions C07_round_trip_partial.

(** What is missing: the phase candidate, whose long form is not in the grammar. *)
Theorem C07_candidate v t : wf v -> v_pre v = Some t -> phase t = lit "candidate" ->
  parse_version (to_string v) = Err ParseVersionError.
Proof. intros W E P. apply parse_candidate; auto. unfold candidate. now rewrite E, P. Qed.
Print Assumptions C07_candidate.

Theorem C07_refuted : exists s v, parse_version s = Ok v /\ parse_version (to_string v) = Err ParseVersionError.
Proof. exists (lit "1.0c1"), (candidate_of [1; 0] 1). now vm_compute. Qed.
Print Assumptions C07_refuted.

Example C07_case : wf full /\ to_string full = lit "1!2.0-beta.3-rev.0-dev.4+ubuntu.7"
  /\ parse_version (lit "1!2.0-beta.3-rev.0-dev.4+ubuntu.7") = Ok full.
Proof. split; [|now vm_compute]. apply (parse_wf (lit "1!2.0-beta.3-rev.0-dev.4+ubuntu.7")). now vm_compute. Qed.

(** ** C08 *)

Theorem C08_round_trip v : wf v -> parse_version (to_short_string v) = Ok v.
Proof. exact (parse_short v). Qed.
Print Assumptions C08_round_trip.

Example C08_case : wf (candidate_of [1; 0] 1) /\ to_short_string (candidate_of [1; 0] 1) = lit "1.0c1"
  /\ to_short_string full = lit "1!2.0b3.r0.dev4+ubuntu.7".
Proof. split; [|now vm_compute]. apply (parse_wf (lit "1.0c1")). now vm_compute. Qed.

(** ** C09 *)

Theorem C09_normalize v : wf v -> normalize v = Ok (normal_version v).
Proof. intros W. now apply normalize_eq. Qed.
Print Assumptions C09_normalize.

Theorem C09_idempotent v n : wf v -> normalize v = Ok n -> wf n /\ normalize n = Ok n.
Proof.
  intros W E. destruct (normalize_eq v W) as (X & Y & Z). assert (n = normal_version v) as -> by congruence.
  split; auto. destruct (normalize_eq _ Y) as (-> & _). now rewrite Z.
Qed.
Print Assumptions C09_idempotent.

Theorem C09_round_trip v : wf v -> exists s, to_pep440_string v = Ok s /\ parse_version s = normalize v.
Proof. intros W. destruct (normalize_eq v W) as (-> & _). now apply pep440_parse. Qed.
Print Assumptions C09_round_trip.

Example C09_case : to_pep440_string full = Ok (lit "1!2.0b3.post0.dev4+ubuntu.7")
  /\ normalize (candidate_of [1; 0] 1) = Ok (Version 0 [1; 0] (Some (Tag (lit "rc") 1)) None None None).
Proof. now vm_compute. Qed.

(** ** C10 *)

Theorem C10_grammar s v : parse_version s = Ok v <-> exists t, tree t /\ lower_case t /\ text t = s /\ reading t = v.
Proof. exact (parse_ok s v). Qed.
Print Assumptions C10_grammar.

Theorem C10_unambiguous t u : tree t -> tree u -> text t = text u -> t = u.
Proof. exact (text_unique t u). Qed.
Print Assumptions C10_unambiguous.

(** The tree of "v01!2.0_b-3-4.dev+a_07". *)
Definition sample : gversion :=
  GVersion (Some 118%N) (Some (lit "01")) (lit "2") [lit "0"]
    (Some (GTag (Some 95%N) (lit "b") (Some (Some 45%N, lit "3")))) (Some (Implicit (lit "4")))
    (Some (GTag (Some 46%N) (lit "dev") None)) (Some (lit "a", [(95%N, lit "07")])).

Lemma sample_tree : tree sample /\ lower_case sample.
Proof.
  assert (D : forall d, d <> [] -> forallb is_digit d = true -> digits d).
  { intros d N H. split; auto. rewrite forallb_forall in H. apply Forall_forall. intros c Hc. now apply digit_iff, H. }
  assert (S : forall p, spells p p) by (intros p; unfold spells; induction p; constructor; auto; now left).
  split.
  - unfold tree, sample. cbn [g_v g_epoch g_first g_more g_pre g_post g_dev g_local opt]. split; [now left|].
    split; [now apply D|]. split; [now apply D|]. split; [repeat constructor; discriminate|].
    split; [|split; [|split; [|split]]].
    + split; [cbn; unfold separator; auto|]. split; [exists (lit "b"); split; [cbn; auto|apply S]|]. cbn. split; [unfold separator; auto|now apply D].
    + now apply D.
    + split; [cbn; unfold separator; auto|]. split; [exists (lit "dev"); split; [cbn; auto|apply S]|]. exact I.
    + split; [split; [discriminate|]|].
      * constructor; [|constructor]. right. exists 97%N. split; [split; discriminate|now left].
      * constructor; [|constructor]. cbn. split; [right; right; reflexivity|]. split; [discriminate|]. constructor; [left; split; discriminate|]. constructor; [left; split; discriminate|constructor].
    + discriminate.
  - unfold lower_case, lower_tag. cbn. auto 10.
Qed.

Example C10_case : tree sample /\ lower_case sample /\ text sample = lit "v01!2.0_b-3-4.dev+a_07"
  /\ reading sample = Version 1 [2; 0] (Some (Tag (lit "beta") 3)) (Some (Tag (lit "post") 4)) (Some (Tag (lit "dev") 0)) (Some [LStr (lit "a"); LInt 7])
  /\ parse_version (lit "1.0a-1") = Ok (Version 0 [1; 0] (Some (Tag (lit "alpha") 1)) None None None)
  /\ parse_version (lit "1.0-1a") = Err ParseVersionError.
Proof. split; [apply sample_tree|]. split; [apply sample_tree|]. now vm_compute. Qed.

(** ** C11 *)

Theorem C11_lower_partial s : (forall c a, In c s -> folds c a -> c = a) ->
  (exists v, parse_version s = Ok v) \/ parse_version s = Err ParseVersionError.
Proof. exact (parse_fixed s). Qed.
Print Assumptions C11_lower_partial.

(** What is missing: strings matching the grammar with a capital letter in a tag,
    and only those, raise [ValueError]. *)
Theorem C11_errors s e : parse_version s = Err e <->
  (e = ParseVersionError /\ ~ exists t, tree t /\ text t = s)
  \/ (e = ValueError /\ exists t, tree t /\ ~ lower_case t /\ text t = s).
Proof. exact (parse_err s e). Qed.
Print Assumptions C11_errors.

Theorem C11_refuted : exists s, parse_version s = Err ValueError.
Proof. exists (lit "1.0RC1"). now vm_compute. Qed.
Print Assumptions C11_refuted.

Example C11_case : (forall c a, In c (lit "1.x") -> folds c a -> c = a) /\ parse_version (lit "1.x") = Err ParseVersionError.
Proof.
  split; [|now vm_compute]. intros c a H F. unfold folds in F. cbn in H. Lia.lia.
Qed.

(** ** C12 *)

Theorem C12_parsed_wf s v : parse_version s = Ok v -> wf v.
Proof. exact (parse_wf s v). Qed.
Print Assumptions C12_parsed_wf.

(** Nothing more can be said of parsed versions: every such version is parsed
    from some string. *)
Theorem C12_all_wf v : wf v -> exists s, parse_version s = Ok v.
Proof. intros W. exists (to_short_string v). now apply parse_short. Qed.
Print Assumptions C12_all_wf.

Example C12_case : exists v, parse_version (lit "1!02a-3+x.7") = Ok v
  /\ v = Version 1 [2] (Some (Tag (lit "alpha") 3)) None None (Some [LStr (lit "x"); LInt 7]).
Proof. eexists. now vm_compute. Qed.

(** ** C13 *)

Theorem C13_variants t u : tree t -> tree u -> lower_case t -> lower_case u ->
  exists v w, parse_version (text t) = Ok v /\ parse_version (text u) = Ok w /\ (v = w <-> same_spelling t u).
Proof. exact (parse_variants t u). Qed.
Print Assumptions C13_variants.

(** "1!2.0beta03.post4-dev0+a.7" *)
Definition sample' : gversion :=
  GVersion None (Some (lit "1")) (lit "2") [lit "00"]
    (Some (GTag None (lit "beta") (Some (None, lit "03"))))
    (Some (Explicit (GTag (Some 46%N) (lit "post") (Some (None, lit "4")))))
    (Some (GTag (Some 45%N) (lit "dev") (Some (None, lit "0")))) (Some (lit "a", [(46%N, lit "7")])).

Example C13_case : same_spelling sample sample' /\ text sample' = lit "1!2.00beta03.post4-dev0+a.7"
  /\ parse_version (text sample') = parse_version (text sample).
Proof.
  split; [|now vm_compute]. unfold same_spelling, same_tag, same_word, same_number. cbn.
  split; [exists 1%nat, 0%nat, (lit "1"); auto|]. split.
  { constructor; [exists 0%nat, 0%nat, (lit "2"); auto|]. constructor; [exists 0%nat, 1%nat, (lit "0"); auto|constructor]. }
  split; [split; [right; left; auto|exists 0%nat, 1%nat, (lit "3"); auto]|].
  split; [split; [now left|exists 0%nat, 0%nat, (lit "4"); auto]|].
  split; [split; [now left|exists 0%nat, 1%nat, []; auto]|].
  constructor; [now left|]. constructor; [|constructor]. right. 
  split; [split; [discriminate|repeat constructor; discriminate]|]. split; [split; [discriminate|repeat constructor; discriminate]|].
  exists 1%nat, 0%nat, (lit "7"). auto.
Qed.
