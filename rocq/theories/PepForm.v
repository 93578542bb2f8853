(** The expression by which PEP 440 (appendix B) accepts versions, as sets of
    strings. Nothing of the model is used but the type of strings.

    Left out: the PEP's expression is put between \s* and \s*, so that white
    space around a version is accepted. *)

From Coq Require Import List NArith String.
From Verif Require Import Py.
Import ListNotations.
Local Open Scope N_scope.

Definition lang : Type := pstr -> Prop.

Definition then_ (L M : lang) : lang := fun s => exists u v, s = u ++ v /\ L u /\ M v.
Definition maybe (L : lang) : lang := fun s => s = [] \/ L s.
Definition either (L M : lang) : lang := fun s => L s \/ M s.
Inductive many (L : lang) : lang :=
  | many_none : many L []
  | many_more u v : L u -> many L v -> many L (u ++ v).
Definition some (L : lang) : lang := then_ L (many L).
Definition char (P : N -> Prop) : lang := fun s => exists c, P c /\ s = [c].
Infix ";;" := then_ (at level 60, right associativity).

(** [0-9], [-_.] *)
Definition decimal : lang := char (fun c => 48 <= c <= 57).
Definition mark (c : N) : Prop := c = 45 \/ c = 95 \/ c = 46.
Definition marked : lang := char mark.
Definition exactly (c : N) : lang := char (eq c).

(** Ignoring case: besides A to Z, Python lets two letters pass for i, one for
    s and one for k. *)
Definition either_case (c a : N) : Prop :=
  c = a \/ (65 <= c <= 90 /\ a = c + 32) \/ ((c = 304 \/ c = 305) /\ a = 105)
  \/ (c = 383 /\ a = 115) \/ (c = 8490 /\ a = 107).
Definition any_case (w p : pstr) : Prop := Forall2 either_case w p.
Definition as_is (w p : pstr) : Prop := w = p.

(** [a-z0-9] *)
Definition alnum (c : N) : Prop := 48 <= c <= 57 \/ exists a, 97 <= a <= 122 /\ either_case c a.

Definition one_of (R : pstr -> pstr -> Prop) (words : list string) : lang :=
  fun s => exists p, In p words /\ R s (lit p).

(** [-_.]?(word)[-_.]?([0-9]+)? *)
Definition pep_tag (R : pstr -> pstr -> Prop) (words : list string) : lang :=
  maybe marked ;; one_of R words ;; maybe marked ;; maybe (some decimal).

(** The words are compared by [R]; "v" and the local version ignore case. *)
Definition pep_form (R : pstr -> pstr -> Prop) : lang :=
  maybe (char (fun c => c = 118 \/ c = 86))
  ;; maybe (some decimal ;; exactly 33)
  ;; (some decimal ;; many (exactly 46 ;; some decimal))
  ;; maybe (pep_tag R ["a"; "b"; "c"; "rc"; "alpha"; "beta"; "pre"; "preview"]%string)
  ;; maybe (either (exactly 45 ;; some decimal) (pep_tag R ["post"; "rev"; "r"]%string))
  ;; maybe (pep_tag R ["dev"]%string)
  ;; maybe (exactly 43 ;; some (char alnum) ;; many (marked ;; some (char alnum))).

(** Every one of the marks is followed by a letter or a digit. *)
Definition tidy (s : pstr) : Prop :=
  forall u c v, s = u ++ c :: v -> mark c -> exists d w, v = d :: w /\ alnum d.
