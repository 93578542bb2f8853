(** A backtracking regular expression matcher with named groups, modelling
    [re.Pattern.fullmatch] on the constructs used in [versions/patterns.py]:
    character classes, concatenation, ordered alternation, greedy [?], [*] and
    [+], and named groups. *)

From Coq Require Import List ZArith NArith String Ascii Bool Arith.
From Verif Require Import Py.
Import ListNotations.

(** Group names (patterns.py:112-133, 206-207). *)
Inductive group :=
| G_EPOCH | G_RELEASE | G_PHASE | G_VALUE
| G_PRE | G_PRE_PHASE | G_PRE_VALUE
| G_POST_IMPLICIT | G_POST | G_POST_PHASE | G_POST_VALUE
| G_DEV | G_DEV_PHASE | G_DEV_VALUE
| G_LOCAL | G_OPERATOR | G_VERSION.

Definition group_index (g : group) : N :=
  match g with
  | G_EPOCH => 0 | G_RELEASE => 1 | G_PHASE => 2 | G_VALUE => 3
  | G_PRE => 4 | G_PRE_PHASE => 5 | G_PRE_VALUE => 6
  | G_POST_IMPLICIT => 7 | G_POST => 8 | G_POST_PHASE => 9 | G_POST_VALUE => 10
  | G_DEV => 11 | G_DEV_PHASE => 12 | G_DEV_VALUE => 13
  | G_LOCAL => 14 | G_OPERATOR => 15 | G_VERSION => 16
  end%N.

Inductive re :=
| Eps
| Chr (p : N -> bool)
| Cat (r q : re)
| Alt (r q : re)          (* r|q : r is tried first *)
| Opt (r : re)            (* r? : greedy *)
| Star (r : re)           (* r* : greedy *)
| Grp (g : group) (r : re).

Definition Plus (r : re) : re := Cat r (Star r).

Definition caps := list (group * pstr).

(** [match.group(name)] *)
Fixpoint get_group (g : group) (cs : caps) : option pstr :=
  match cs with
  | [] => None
  | (h, s) :: cs' => if (group_index h =? group_index g)%N then Some s else get_group g cs'
  end.

(** Continuation passing matcher.  An iteration of a star must consume
    something, as in Python's engine. *)
Fixpoint mt (r : re) (s : pstr) (cs : caps) (k : pstr -> caps -> option caps) : option caps :=
  match r with
  | Eps => k s cs
  | Chr p =>
      match s with
      | [] => None
      | c :: s' => if p c then k s' cs else None
      end
  | Cat r1 r2 => mt r1 s cs (fun s' cs' => mt r2 s' cs' k)
  | Alt r1 r2 =>
      match mt r1 s cs k with
      | Some x => Some x
      | None => mt r2 s cs k
      end
  | Opt r1 =>
      match mt r1 s cs k with
      | Some x => Some x
      | None => k s cs
      end
  | Star r1 =>
      (fix go (n : nat) (s : pstr) (cs : caps) : option caps :=
         match n with
         | O => k s cs
         | S n' =>
             match mt r1 s cs (fun s' cs' =>
                     if (List.length s' <? List.length s)%nat then go n' s' cs' else None) with
             | Some x => Some x
             | None => k s cs
             end
         end) (List.length s) s cs
  | Grp g r1 =>
      mt r1 s cs (fun s' cs' =>
        k s' ((g, firstn (List.length s - List.length s') s) :: cs'))
  end.

(** [pattern.fullmatch(s)] *)
Definition fullmatch (r : re) (s : pstr) : option caps :=
  mt r s [] (fun s' cs => match s' with [] => Some cs | _ => None end).

(** Simple case folding under [re.IGNORECASE], restricted to what folds to an
    ASCII letter: besides ASCII upper case, U+0130 and U+0131 match [i],
    U+017F matches [s] and U+212A matches [k]. *)
Definition lower (c : N) : N :=
  (if (65 <=? c) && (c <=? 90) then c + 32
   else if (c =? 304) || (c =? 305) then 105
   else if c =? 383 then 115
   else if c =? 8490 then 107
   else c)%N.

Definition ci (a : N) : re := Chr (fun c => (lower c =? a)%N).

Fixpoint word (s : pstr) : re :=
  match s with
  | [] => Eps
  | [c] => ci c
  | c :: s' => Cat (ci c) (word s')
  end.

Fixpoint alts (ss : list pstr) : re :=
  match ss with
  | [] => Eps
  | [s] => word s
  | s :: ss' => Alt (word s) (alts ss')
  end.

Fixpoint cats (rs : list re) : re :=
  match rs with
  | [] => Eps
  | [r] => r
  | r :: rs' => Cat r (cats rs')
  end.
