(** [versions/patterns.py] as regular expressions. *)

From Coq Require Import List ZArith NArith String Bool.
From Verif Require Import Py Segments Regex.
Import ListNotations.

(** patterns.py:102-106 *)
Definition is_alpha (c : N) : bool := ((97 <=? lower c) && (lower c <=? 122))%N.
Definition is_alnum (c : N) : bool := is_alpha c || is_digit c.
Definition is_sep (c : N) : bool := ((c =? 46) || (c =? 45) || (c =? 95))%N.
Definition DIGITS : re := Plus (Chr is_digit).
Definition ALPHA_DIGITS : re := Plus (Chr is_alnum).
Definition SEPARATOR : re := Chr is_sep.
Definition chr (c : N) : re := Chr (N.eqb c).

(** patterns.py:137-138; [^] and [$] add nothing under [fullmatch] *)
Definition TAG : re :=
  Cat (Grp G_PHASE (Plus (Chr is_alpha)))
      (Opt (Cat (Opt SEPARATOR) (Grp G_VALUE DIGITS))).

(** patterns.py:143 *)
Definition P_V : re := Opt (ci 118).

(** patterns.py:145-147 *)
Definition P_EPOCH : re := Opt (Cat (Grp G_EPOCH DIGITS) (chr 33)).

(** patterns.py:149 *)
Definition P_RELEASE : re := Grp G_RELEASE (Cat DIGITS (Star (Cat (chr 46) DIGITS))).

(** patterns.py:151-161 *)
Definition P_PRE : re :=
  Opt (Cat (Opt SEPARATOR)
           (Grp G_PRE (Cat (Grp G_PRE_PHASE (alts PRE_PHASES))
                           (Opt (Cat (Opt SEPARATOR) (Grp G_PRE_VALUE DIGITS)))))).

(** patterns.py:163-177 *)
Definition P_POST : re :=
  Opt (Alt (Cat (chr 45) (Grp G_POST_IMPLICIT DIGITS))
           (Cat (Opt SEPARATOR)
                (Grp G_POST (Cat (Grp G_POST_PHASE (alts POST_PHASES))
                                 (Opt (Cat (Opt SEPARATOR) (Grp G_POST_VALUE DIGITS))))))).

(** patterns.py:179-189 *)
Definition P_DEV : re :=
  Opt (Cat (Opt SEPARATOR)
           (Grp G_DEV (Cat (Grp G_DEV_PHASE (alts DEV_PHASES))
                           (Opt (Cat (Opt SEPARATOR) (Grp G_DEV_VALUE DIGITS)))))).

(** patterns.py:142-190 *)
Definition PUBLIC_VERSION : re := cats [P_V; P_EPOCH; P_RELEASE; P_PRE; P_POST; P_DEV].

(** patterns.py:194-198 *)
Definition P_LOCAL : re :=
  Opt (Cat (chr 43) (Grp G_LOCAL (Cat ALPHA_DIGITS (Star (Cat SEPARATOR ALPHA_DIGITS))))).

(** patterns.py:200-202 *)
Definition VERSION : re := Cat PUBLIC_VERSION P_LOCAL.

(** patterns.py:214 *)
Definition WILDCARD : re := Alt (ci 120) (chr 42).

(** patterns.py:233-241 *)
Definition W_PRE : re := cats [Opt SEPARATOR; alts PRE_PHASES; Opt SEPARATOR; WILDCARD].

(** patterns.py:244-254 *)
Definition W_PRE_OPT : re :=
  Opt (cats [Opt SEPARATOR; alts PRE_PHASES; Opt (Cat (Opt SEPARATOR) DIGITS)]).

(** patterns.py:256-268 *)
Definition W_POST : re :=
  Alt (Cat (chr 45) WILDCARD)
      (cats [Opt SEPARATOR; alts POST_PHASES; Opt SEPARATOR; WILDCARD]).

(** patterns.py:271-285 *)
Definition W_POST_OPT : re :=
  Opt (Alt (Cat (chr 45) DIGITS)
           (cats [Opt SEPARATOR; alts POST_PHASES; Opt (Cat (Opt SEPARATOR) DIGITS)])).

(** patterns.py:286-294 *)
Definition W_DEV : re := cats [Opt SEPARATOR; alts DEV_PHASES; Opt SEPARATOR; WILDCARD].

(** patterns.py:226-300 *)
Definition W_RELEASE : re :=
  Cat (Cat DIGITS (Star (Cat (chr 46) DIGITS)))
      (Alt (Cat (chr 46) WILDCARD)
           (Alt W_PRE
                (Cat W_PRE_OPT (Alt W_POST (Cat W_POST_OPT W_DEV))))).

(** patterns.py:216-302 *)
Definition WILDCARD_VERSION : re :=
  cats [P_V; Opt (Cat DIGITS (chr 33)); Alt WILDCARD W_RELEASE].

(** patterns.py:306-337 *)
Definition EQUAL_OPERATOR : re := Opt (Grp G_OPERATOR (alts [lit "=="; lit "="; lit "!="])).
Definition WILDCARD_SPECIFICATION : re := Cat EQUAL_OPERATOR (Grp G_VERSION WILDCARD_VERSION).
Definition ORDER_SPECIFICATION : re :=
  Cat (Grp G_OPERATOR (alts [lit "<="; lit ">="; lit "<"; lit ">"]))
      (Grp G_VERSION PUBLIC_VERSION).
Definition CARET_SPECIFICATION : re :=
  Cat (Grp G_OPERATOR (alts [lit "^"])) (Grp G_VERSION PUBLIC_VERSION).
Definition TILDE_SPECIFICATION : re :=
  Cat (Grp G_OPERATOR (alts [lit "~="; lit "~"])) (Grp G_VERSION PUBLIC_VERSION).
Definition EQUAL_SPECIFICATION : re := Cat EQUAL_OPERATOR (Grp G_VERSION VERSION).
