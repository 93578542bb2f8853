(** Lemmas for C104. *)

From Coq Require Import List ZArith NArith String Bool.
From Verif Require Import Py Segments Version Parsers VersionSets Operators Specifiers Typed GenericSets TypedSets TypedCaches
  SeparateSpec SeparateMain Grammar ParseTheorems Versioned.
Import ListNotations.

Section After.
  Context (h : op_type -> N) (mix : list N -> N) (cs : list tcall) (T : vtype).
  Notation after x := (get_version_after h mix cs x T).

  Lemma after_text s : after (Some (Text s)) = rmap (Typed T) (parse_version s).
  Proof.
    pose proof (any_version h mix cs (Arguments BY_POSITION T s)) as E.
    unfold t_answer_after, t_do_call, tgive, tThen, t_answer_alone in E. cbn [a_type a_string] in E.
    unfold get_version_after, get_version_c. cbn [hashable matched_text].
    destruct (t_parse_version_c (Arguments BY_POSITION T s) (t_do_calls h mix cs no_tcaches)) as [[y | e] c] eqn:X.
    - cbn in E. unfold t_parse_version in E. destruct (parse_version s); cbn in E |- *; congruence.
    - cbn in E. unfold t_parse_version in E. destruct (parse_version s); cbn in E |- *; congruence.
  Qed.

  Lemma after_bytes b : after (Some (Bytes b)) = Err TypeError. Proof. reflexivity. Qed.
  Lemma after_object b : after (Some (Object b)) = Err TypeError. Proof. now destruct b. Qed.
  Lemma after_none : after None = Err AttributeError. Proof. reflexivity. Qed.

  Lemma text_errors s e : after (Some (Text s)) = Err e <-> parse_version s = Err e.
  Proof. rewrite after_text. destruct (parse_version s); cbn; split; congruence. Qed.

  Lemma version_ok x y : after x = Ok y <-> exists t, tree t /\ lower_case t /\ x = Some (Text (text t)) /\ y = Typed T (reading t).
  Proof.
    destruct x as [[s | b | b] |].
    - rewrite after_text. split.
      + destruct (parse_version s) as [v | e] eqn:E; [| discriminate]. intros H. injection H as <-.
        apply parse_ok in E as (t & A & B & <- & <-). now exists t.
      + intros (t & A & B & X & ->). injection X as ->.
        assert (parse_version (text t) = Ok (reading t)) as -> by (apply parse_ok; now exists t). reflexivity.
    - rewrite after_bytes. split; [discriminate | now intros (t & _ & _ & X & _)].
    - rewrite after_object. split; [discriminate | now intros (t & _ & _ & X & _)].
    - rewrite after_none. split; [discriminate | now intros (t & _ & _ & X & _)].
  Qed.

  Lemma version_err x e : after x = Err e <->
    (x = None /\ e = AttributeError)
    \/ (x <> None /\ ~ (exists s, x = Some (Text s)) /\ e = TypeError)
    \/ (exists s, x = Some (Text s) /\ ~ (exists t, tree t /\ text t = s) /\ e = ParseVersionError)
    \/ (exists t, x = Some (Text (text t)) /\ tree t /\ ~ lower_case t /\ e = ValueError).
  Proof.
    destruct x as [[s | b | b] |].
    - rewrite text_errors, parse_err. split.
      + intros [[-> N] | [-> (t & A & B & <-)]].
        * right; right; left. exists s. auto.
        * right; right; right. exists t. auto.
      + intros [[X _] | [[_ [N _]] | [(u & X & N & ->) | (t & X & A & B & ->)]]].
        * discriminate.
        * exfalso. apply N. now exists s.
        * injection X as ->. now left.
        * injection X as ->. right. split; auto. now exists t.
    - rewrite after_bytes. split.
      + intros H. injection H as <-. right; left. split; [discriminate |]. split; [now intros (s & X) | auto].
      + intros [[X _] | [[_ [_ ->]] | [(u & X & _) | (t & X & _)]]]; try discriminate; auto.
    - rewrite after_object. split.
      + intros H. injection H as <-. right; left. split; [discriminate |]. split; [now intros (s & X) | auto].
      + intros [[X _] | [[_ [_ ->]] | [(u & X & _) | (t & X & _)]]]; try discriminate; auto.
    - rewrite after_none. split.
      + intros H. injection H as <-. now left.
      + intros [[_ ->] | [[N _] | [(u & X & _) | (t & X & _)]]]; try discriminate; auto. now elim N.
  Qed.

  Lemma versioned_exact x : is_versioned x = false <-> after x = Err AttributeError.
  Proof.
    rewrite version_err. destruct x as [a |]; cbn; split.
    - discriminate.
    - intros [[X _] | [[_ [_ X]] | [(u & _ & _ & X) | (t & _ & _ & _ & X)]]]; discriminate.
    - now left.
    - auto.
  Qed.

  Lemma untyped : exists x, has_version x = true /\ (forall s, x <> Some (Text s)) /\ after x = Err TypeError.
  Proof. exists (Some (Object true)). repeat split. discriminate. Qed.
End After.
