(** [re.compile(text, re.IGNORECASE | re.VERBOSE)] (patterns.py:82, 108) and
    [fullmatch] on the result, for the part of Python's syntax that the pattern
    texts use: literals, escapes, character sets, named and plain groups,
    alternatives, the greedy quantifiers [?], [*], [+], and the two anchors.  A
    text outside that part is refused with [None]; so is a text that Python
    refuses. *)

From Coq Require Import List ZArith NArith String Bool Arith.
From Verif Require Import Py.
Import ListNotations.

(** ** The text as tokens (CPython, [Lib/re/_parser.py], [_parse]) *)

Inductive token :=
| TChar (c : N)
| TSet (ranges : list (N * N))
| TOpen (name : option pstr)     (* [(?:] or [(?P<name>] *)
| TClose
| TBar
| TQuestion | TStar | TPlus
| TStart | TEnd.                 (* [^] and [$] *)

(** Outside a set, [re.VERBOSE] drops the blank characters of ASCII. *)
Definition blank (c : N) : bool := existsb (N.eqb c) [32; 9; 10; 13; 11; 12]%N.

Definition ascii_letter (c : N) : bool := ((65 <=? c) && (c <=? 90) || (97 <=? c) && (c <=? 122))%N.
Definition ascii_digit (c : N) : bool := ((48 <=? c) && (c <=? 57))%N.

(** [re.VERBOSE] drops a comment, up to the end of the line. *)
Fixpoint after_comment (s : pstr) : pstr :=
  match s with
  | [] => []
  | c :: s' => if (c =? 10)%N then s' else after_comment s'
  end.

(** One character, possibly escaped.  An escaped letter or digit means something
    else than itself and is refused. *)
Definition one_char (s : pstr) : option (N * pstr) :=
  match s with
  | [] => None
  | c :: s' =>
      if (c =? 92)%N
      then match s' with
           | [] => None
           | d :: s'' => if ascii_letter d || ascii_digit d then None else Some (d, s'')
           end
      else Some (c, s')
  end.

(** The inside of a set, up to its closing bracket.  Complemented sets and sets
    containing an unescaped bracket are refused. *)
Fixpoint read_set (fuel : nat) (s : pstr) (ranges : list (N * N)) : option (list (N * N) * pstr) :=
  match fuel with
  | O => None
  | S fuel' =>
      match s with
      | [] => None
      | c :: s' =>
          if (c =? 93)%N
          then match ranges with [] => None | _ => Some (rev ranges, s') end
          else if (c =? 91)%N then None
          else if (c =? 94)%N && match ranges with [] => true | _ => false end then None
          else
            match one_char s with
            | None => None
            | Some (a, r) =>
                match r with
                | d :: r' =>
                    if (d =? 45)%N && match r' with e :: _ => negb (e =? 93)%N | [] => false end
                    then match one_char r' with
                         | None => None
                         | Some (b, r'') => if (a <=? b)%N then read_set fuel' r'' ((a, b) :: ranges) else None
                         end
                    else read_set fuel' r ((a, a) :: ranges)
                | [] => None
                end
            end
      end
  end.

(** The name of a group, up to [>]. *)
Fixpoint read_name (s : pstr) (name : pstr) : option (pstr * pstr) :=
  match s with
  | [] => None
  | c :: s' =>
      if (c =? 62)%N then match name with [] => None | _ => Some (rev name, s') end
      else if ascii_letter c || (c =? 95)%N || ascii_digit c && match name with [] => false | _ => true end
      then read_name s' (c :: name)
      else None
  end.

(** A quantifier directly followed by [?] or [+] would be a lazy or possessive
    one; these are refused. *)
Definition plain_quantifier (s : pstr) : bool :=
  match s with
  | c :: _ => negb ((c =? 63) || (c =? 43))%N
  | [] => true
  end.

Fixpoint tokens (fuel : nat) (s : pstr) : option (list token) :=
  match fuel with
  | O => None
  | S fuel' =>
      let next (t : token) (r : pstr) := option_map (cons t) (tokens fuel' r) in
      match s with
      | [] => Some []
      | c :: s' =>
          if blank c then tokens fuel' s'
          else if (c =? 35)%N then tokens fuel' (after_comment s')
          else if (c =? 40)%N then
            match s' with
            | q :: x :: r =>
                if (q =? 63)%N && (x =? 58)%N then next (TOpen None) r
                else match r with
                     | y :: r' =>
                         if (q =? 63)%N && (x =? 80)%N && (y =? 60)%N
                         then match read_name r' [] with
                              | Some (name, r'') => next (TOpen (Some name)) r''
                              | None => None
                              end
                         else None
                     | [] => None
                     end
            | _ => None
            end
          else if (c =? 41)%N then next TClose s'
          else if (c =? 124)%N then next TBar s'
          else if (c =? 63)%N then if plain_quantifier s' then next TQuestion s' else None
          else if (c =? 42)%N then if plain_quantifier s' then next TStar s' else None
          else if (c =? 43)%N then if plain_quantifier s' then next TPlus s' else None
          else if (c =? 91)%N then
            match read_set fuel' s' [] with
            | Some (ranges, r) => next (TSet ranges) r
            | None => None
            end
          else if (c =? 94)%N then next TStart s'
          else if (c =? 36)%N then next TEnd s'
          else if (c =? 46)%N || (c =? 123)%N then None
          else match one_char s with
               | Some (d, r) => next (TChar d) r
               | None => None
               end
      end
  end.

(** ** The tokens as a tree ([_parse_sub] and [_parse]) *)

Inductive rx :=
| XChar (c : N)
| XSet (ranges : list (N * N))
| XStart
| XEnd
| XSeq (xs : list rx)
| XOr (xs : list rx)
| XOpt (x : rx)
| XStar (x : rx)
| XPlus (x : rx)
| XGroup (name : option pstr) (x : rx).

(** An open group: its name, the alternatives read so far and the items of the
    one being read, both backwards. *)
Definition frame := (option pstr * list rx * list rx)%type.

Definition sequence (items : list rx) : rx := match items with [x] => x | _ => XSeq (rev items) end.

(** The items of a group, once it is complete. *)
Definition group_body (bs items : list rx) : rx :=
  match bs with
  | [] => sequence items
  | _ => XOr (rev (sequence items :: bs))
  end.

(** A quantifier applies to the item before it; there must be one, not an anchor
    and not quantified already. *)
Definition quantified (q : rx -> rx) (items : list rx) : option (list rx) :=
  match items with
  | [] => None
  | XStart :: _ | XEnd :: _ | XOpt _ :: _ | XStar _ :: _ | XPlus _ :: _ => None
  | x :: items' => Some (q x :: items')
  end.

Fixpoint structured (ts : list token) (name : option pstr) (bs items : list rx) (outer : list frame) : option rx :=
  match ts with
  | [] => match outer with [] => Some (group_body bs items) | _ => None end
  | t :: ts' =>
      let again (items' : option (list rx)) :=
        match items' with Some items' => structured ts' name bs items' outer | None => None end in
      match t with
      | TChar c => structured ts' name bs (XChar c :: items) outer
      | TSet ranges => structured ts' name bs (XSet ranges :: items) outer
      | TStart => structured ts' name bs (XStart :: items) outer
      | TEnd => structured ts' name bs (XEnd :: items) outer
      | TQuestion => again (quantified XOpt items)
      | TStar => again (quantified XStar items)
      | TPlus => again (quantified XPlus items)
      | TBar => structured ts' name (sequence items :: bs) [] outer
      | TOpen name' => structured ts' name' [] [] ((name, bs, items) :: outer)
      | TClose =>
          match outer with
          | [] => None
          | (name', bs', items') :: outer' => structured ts' name' bs' (XGroup name (group_body bs items) :: items') outer'
          end
      end
  end.

(** No two groups have the same name. *)
Definition opened (ts : list token) : list pstr :=
  flat_map (fun t => match t with TOpen (Some name) => [name] | _ => [] end) ts.

Fixpoint distinct (names : list pstr) : bool :=
  match names with
  | [] => true
  | n :: names' => negb (existsb (str_eqb n) names') && distinct names'
  end.

(** [re.compile(text, FLAGS)] *)
Definition compile (text : pstr) : option rx :=
  match tokens (S (List.length text)) text with
  | None => None
  | Some ts => if distinct (opened ts) then structured ts None [] [] [] else None
  end.

(** ** Characters under [re.IGNORECASE] (CPython, [Lib/re/_compiler.py]) *)

(** The simple lower case of a character, restricted to what matters for a
    pattern in ASCII: the characters whose lower case is an ASCII letter are the
    upper case letters, U+0130 and U+212A, and no character but U+0131 and
    U+017F themselves has one of those as its lower case.  Every other
    character is left as it is. *)
Definition tolower (c : N) : N :=
  (if (65 <=? c) && (c <=? 90) then c + 32
   else if c =? 304 then 105
   else if c =? 8490 then 107
   else c)%N.

(** [_casefix._EXTRA_CASES], the entries with an ASCII letter *)
Definition extra_cases (c : N) : list N :=
  (if c =? 105 then [305]
   else if c =? 115 then [383]
   else if c =? 305 then [105]
   else if c =? 383 then [115]
   else [])%N.

(** [_sre.unicode_iscased] in ASCII *)
Definition iscased (c : N) : bool := ascii_letter c.

(** A character of the pattern and what it matches. *)
Definition fold_matches (a c : N) : bool := existsb (N.eqb (tolower c)) (tolower a :: extra_cases (tolower a)).

Definition char_matches (a c : N) : bool := if iscased a then fold_matches a c else (a =? c)%N.

Fixpoint count_up (a : N) (n : nat) : list N :=
  match n with
  | O => []
  | S n' => a :: count_up (N.succ a) n'
  end.

Definition set_members (ranges : list (N * N)) : list N :=
  flat_map (fun r => count_up (fst r) (N.to_nat (N.succ (snd r) - fst r))) ranges.

Definition set_matches (ranges : list (N * N)) (c : N) : bool :=
  if existsb iscased (set_members ranges)
  then existsb (fun a => fold_matches a c) (set_members ranges)
  else existsb (fun a => (a =? c)%N) (set_members ranges).

(** ** Matching *)

(** What the groups captured, the last capture first. *)
Definition captures := list (pstr * pstr).

(** [n] is the length of the whole string: [^] matches where nothing was
    consumed, [$] at the end and before a newline that ends the string.  An
    iteration of a repetition must consume something. *)
Fixpoint run (n : nat) (x : rx) (s : pstr) (cs : captures) (k : pstr -> captures -> option captures) : option captures :=
  match x with
  | XChar a =>
      match s with
      | [] => None
      | c :: s' => if char_matches a c then k s' cs else None
      end
  | XSet ranges =>
      match s with
      | [] => None
      | c :: s' => if set_matches ranges c then k s' cs else None
      end
  | XStart => if (List.length s =? n)%nat then k s cs else None
  | XEnd =>
      match s with
      | [] => k s cs
      | [c] => if (c =? 10)%N then k s cs else None
      | _ => None
      end
  | XSeq xs =>
      (fix all (xs : list rx) (s : pstr) (cs : captures) : option captures :=
         match xs with
         | [] => k s cs
         | y :: ys => run n y s cs (fun s' cs' => all ys s' cs')
         end) xs s cs
  | XOr xs =>
      (fix any (xs : list rx) : option captures :=
         match xs with
         | [] => None
         | y :: ys => match run n y s cs k with Some r => Some r | None => any ys end
         end) xs
  | XOpt y =>
      match run n y s cs k with
      | Some r => Some r
      | None => k s cs
      end
  | XStar y =>
      (fix go (m : nat) (s : pstr) (cs : captures) : option captures :=
         match m with
         | O => k s cs
         | S m' =>
             match run n y s cs (fun s' cs' =>
                     if (List.length s' <? List.length s)%nat then go m' s' cs' else None) with
             | Some r => Some r
             | None => k s cs
             end
         end) (List.length s) s cs
  | XPlus y =>
      run n y s cs (fun s cs =>
      (fix go (m : nat) (s : pstr) (cs : captures) : option captures :=
         match m with
         | O => k s cs
         | S m' =>
             match run n y s cs (fun s' cs' =>
                     if (List.length s' <? List.length s)%nat then go m' s' cs' else None) with
             | Some r => Some r
             | None => k s cs
             end
         end) (List.length s) s cs)
  | XGroup None y => run n y s cs k
  | XGroup (Some g) y =>
      run n y s cs (fun s' cs' => k s' ((g, firstn (List.length s - List.length s') s) :: cs'))
  end.

(** [pattern.fullmatch(s)] *)
Definition rx_fullmatch (x : rx) (s : pstr) : option captures :=
  run (List.length s) x s [] (fun s' cs => match s' with [] => Some cs | _ => None end).

(** [match.group(name)] *)
Fixpoint group_of (name : pstr) (cs : captures) : option pstr :=
  match cs with
  | [] => None
  | (g, s) :: cs' => if str_eqb g name then Some s else group_of name cs'
  end.

(** [re.compile(text, FLAGS).fullmatch(s)]; the outer [None] is a text that does
    not compile *)
Definition text_fullmatch (text s : pstr) : option (option captures) :=
  option_map (fun x => rx_fullmatch x s) (compile text).
