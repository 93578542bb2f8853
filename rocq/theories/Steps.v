(** The matcher of Regex.v with its steps counted: every node of the expression
    that is entered, every character that is looked at and every continuation
    that is taken up counts.  Python's engine (CPython, [Modules/_sre]) takes
    shortcuts that this count does not: it searches repetitions of one character
    in a loop and skips alternatives by their first character. *)

From Coq Require Import List ZArith NArith String Bool Arith.
From Verif Require Import Py Regex Patterns Parsers.
Import ListNotations.

Definition tick (x : bool * nat) : bool * nat := (fst x, S (snd x)).

(** Try the second if the first fails. *)
Definition orelse (x y : bool * nat) : bool * nat := if fst x then x else (fst y, snd x + snd y)%nat.

Fixpoint steps (r : re) (s : pstr) (k : pstr -> bool * nat) : bool * nat :=
  match r with
  | Eps => tick (k s)
  | Chr p =>
      match s with
      | [] => (false, 1%nat)
      | c :: s' => if p c then tick (k s') else (false, 1%nat)
      end
  | Cat r1 r2 => tick (steps r1 s (fun s' => steps r2 s' k))
  | Alt r1 r2 => tick (orelse (steps r1 s k) (steps r2 s k))
  | Opt r1 => tick (orelse (steps r1 s k) (k s))
  | Star r1 =>
      (fix go (n : nat) (s : pstr) : bool * nat :=
         match n with
         | O => tick (k s)
         | S n' =>
             tick (orelse (steps r1 s (fun s' => if (List.length s' <? List.length s)%nat then go n' s' else (false, 1%nat))) (k s))
         end) (List.length s) s
  | Grp g r1 => tick (steps r1 s k)
  end.

(** [pattern.fullmatch(s)]: whether it matches, and after how many steps. *)
Definition fullmatch_steps (r : re) (s : pstr) : bool * nat :=
  steps r s (fun s' => match s' with [] => (true, 1%nat) | _ => (false, 1%nat) end).

Definition matching (r : re) (s : pstr) : nat := snd (fullmatch_steps r s).

(** The steps [VersionParser.parse] spends matching (parsers.py:130-148): the
    version, then the tags that were captured (parsers.py:75-78). *)
Definition version_matching (s : pstr) : nat :=
  (matching VERSION s +
   match fullmatch VERSION s with
   | None => 0
   | Some m =>
       let tag g := match get_group g m with None => 0 | Some t => matching TAG t end in
       tag G_PRE + tag G_POST + tag G_DEV
   end)%nat.

(** The steps one of the [try_parse_*] methods spends matching
    (parsers.py:194-262): the pattern, then the version it captured. *)
Definition clause_matching (pattern : re) (prepare : pstr -> pstr) (s : pstr) : nat :=
  (matching pattern s +
   match fullmatch pattern s with
   | None => 0
   | Some m => match get_group G_VERSION m with None => 0 | Some v => version_matching (prepare v) end
   end)%nat.

(** parsers.py:170-183: the patterns are tried until one matches. *)
Fixpoint first_matching (ps : list (re * (pstr -> pstr))) (s : pstr) : nat :=
  match ps with
  | [] => 0
  | (pattern, prepare) :: ps' =>
      clause_matching pattern prepare s +
      match fullmatch pattern s with Some _ => 0 | None => first_matching ps' s end
  end%nat.

Definition same_text (s : pstr) : pstr := s.

Definition single_matching : pstr -> nat :=
  first_matching
    [(WILDCARD_SPECIFICATION, fun v => replace_char 42 48 (replace_char 120 42 v));
     (ORDER_SPECIFICATION, same_text); (EQUAL_SPECIFICATION, same_text);
     (CARET_SPECIFICATION, same_text); (TILDE_SPECIFICATION, same_text)].

(** The steps [SpecifierParser.parse] spends matching (parsers.py:161-168).
    Simplification: every clause is counted, also those after one that fails. *)
Definition specifier_matching (s : pstr) : nat :=
  list_sum (map (fun p => list_sum (map single_matching (split_on 44 p))) (split_pipes (clear_whitespace s))).
