(** Python primitives used by the modelled code: strings, exceptions as
    values, sequence indexing and slicing, comparison of tuples and strings,
    [str(int)] and [int(str)], and the few [str] methods the library calls. *)

From Coq Require Import List ZArith NArith Ascii String Bool.
From Coq Require Decimal DecimalN.
Import ListNotations.
Open Scope Z_scope.

(** ** Strings: lists of Unicode code points *)

Definition pstr := list N.

(** ASCII literals written as Coq strings. *)
Fixpoint lit (s : string) : pstr :=
  match s with
  | EmptyString => []
  | String c s' => N_of_ascii c :: lit s'
  end.

(** ** Exceptions as values *)

Inductive error :=
| ValueError
| TypeError
| IndexError
| AttributeError
| RecursionError
| InternalError            (* errors.py:26, or sqlite3.InternalError in parsers.py *)
| ParseTagError            (* errors.py: all four are subclasses of ParseError *)
| ParseVersionError
| ParseSpecificationError.

Inductive result (A : Type) :=
| Ok (a : A)
| Err (e : error).
Arguments Ok {A} _.
Arguments Err {A} _.

Definition bind {A B} (r : result A) (f : A -> result B) : result B :=
  match r with Ok a => f a | Err e => Err e end.

Notation "'let*' x ':=' e 'in' k" := (bind e (fun x => k))
  (at level 200, x name, right associativity).

Definition rmap {A B} (f : A -> B) (r : result A) : result B :=
  match r with Ok a => Ok (f a) | Err e => Err e end.

(** [ [f(x) for x in xs] ] where [f] may raise: stops at the first error. *)
Fixpoint mapM {A B} (f : A -> result B) (xs : list A) : result (list B) :=
  match xs with
  | [] => Ok []
  | x :: xs' => let* y := f x in let* ys := mapM f xs' in Ok (y :: ys)
  end.

(** Values that may be absent ([None]). *)
Definition mapO {A B} (f : A -> result B) (o : option A) : result (option B) :=
  match o with
  | None => Ok None
  | Some a => let* b := f a in Ok (Some b)
  end.

(** ** Three-way comparison *)

(** Python compares tuples, lists and strings lexicographically: the first
    unequal pair of elements decides, otherwise the shorter is lower. *)
Fixpoint lex {A} (c : A -> A -> comparison) (xs ys : list A) : comparison :=
  match xs, ys with
  | [], [] => Eq
  | [], _ :: _ => Lt
  | _ :: _, [] => Gt
  | x :: xs', y :: ys' =>
      match c x y with
      | Eq => lex c xs' ys'
      | r => r
      end
  end.

Definition str_cmp : pstr -> pstr -> comparison := lex N.compare.

Definition str_eqb (s t : pstr) : bool :=
  match str_cmp s t with Eq => true | _ => false end.

Definition then_cmp (c d : comparison) : comparison :=
  match c with Eq => d | r => r end.

Definition is_lt (c : comparison) : bool := match c with Lt => true | _ => false end.
Definition is_gt (c : comparison) : bool := match c with Gt => true | _ => false end.
Definition is_eq (c : comparison) : bool := match c with Eq => true | _ => false end.

(** Membership in a set of strings, and dictionary lookup. *)
Definition str_in (s : pstr) (set : list pstr) : bool := existsb (str_eqb s) set.

Fixpoint dict_get {A} (d : list (pstr * A)) (s : pstr) : option A :=
  match d with
  | [] => None
  | (k, v) :: d' => if str_eqb k s then Some v else dict_get d' s
  end.

(** ** Sequence indexing and slicing with Python's negative indices *)

Definition len {A} (xs : list A) : Z := Z.of_nat (List.length xs).

Definition norm_index {A} (xs : list A) (i : Z) : Z :=
  if i <? 0 then i + len xs else i.

(** [xs[i]] *)
Definition py_get {A} (xs : list A) (i : Z) : result A :=
  let j := norm_index xs i in
  if j <? 0 then Err IndexError
  else match nth_error xs (Z.to_nat j) with
       | Some a => Ok a
       | None => Err IndexError
       end.

Fixpoint update {A} (xs : list A) (n : nat) (a : A) : list A :=
  match xs, n with
  | [], _ => []
  | _ :: xs', O => a :: xs'
  | x :: xs', S n' => x :: update xs' n' a
  end.

(** [xs[i] = a] on a copy of [xs]. *)
Definition py_set {A} (xs : list A) (i : Z) (a : A) : result (list A) :=
  let j := norm_index xs i in
  if (j <? 0) || (len xs <=? j) then Err IndexError
  else Ok (update xs (Z.to_nat j) a).

(** [xs[:i]] *)
Definition py_upto {A} (xs : list A) (i : Z) : list A :=
  firstn (Z.to_nat (norm_index xs i)) xs.

(** [xs[i:]] *)
Definition py_from {A} (xs : list A) (i : Z) : list A :=
  skipn (Z.to_nat (norm_index xs i)) xs.

(** ** Integers and their decimal strings *)

Fixpoint uint_str (d : Decimal.uint) : pstr :=
  match d with
  | Decimal.Nil => []
  | Decimal.D0 d => 48%N :: uint_str d
  | Decimal.D1 d => 49%N :: uint_str d
  | Decimal.D2 d => 50%N :: uint_str d
  | Decimal.D3 d => 51%N :: uint_str d
  | Decimal.D4 d => 52%N :: uint_str d
  | Decimal.D5 d => 53%N :: uint_str d
  | Decimal.D6 d => 54%N :: uint_str d
  | Decimal.D7 d => 55%N :: uint_str d
  | Decimal.D8 d => 56%N :: uint_str d
  | Decimal.D9 d => 57%N :: uint_str d
  end.

Fixpoint str_uint (s : pstr) : option Decimal.uint :=
  match s with
  | [] => Some Decimal.Nil
  | c :: s' =>
      match str_uint s' with
      | None => None
      | Some d =>
          match c with
          | 48%N => Some (Decimal.D0 d)
          | 49%N => Some (Decimal.D1 d)
          | 50%N => Some (Decimal.D2 d)
          | 51%N => Some (Decimal.D3 d)
          | 52%N => Some (Decimal.D4 d)
          | 53%N => Some (Decimal.D5 d)
          | 54%N => Some (Decimal.D6 d)
          | 55%N => Some (Decimal.D7 d)
          | 56%N => Some (Decimal.D8 d)
          | 57%N => Some (Decimal.D9 d)
          | _ => None
          end
      end
  end.

(** [str(z)] for a Python int. *)
Definition str_int (z : Z) : pstr :=
  match z with
  | Zneg p => 45%N :: uint_str (N.to_uint (Npos p))
  | _ => uint_str (N.to_uint (Z.to_N z))
  end.

(** [int(s)] for non-empty strings of ASCII digits, [ValueError] otherwise.
    Simplification: Python's [int] also accepts surrounding whitespace, a
    sign, single underscores and non-ASCII decimal digits; the modelled
    callers only pass strings matched by [[0-9]+].  The 4300 digit limit of
    CPython 3.11 is left to Limits.v. *)
Definition py_int (s : pstr) : result Z :=
  match s with
  | [] => Err ValueError
  | _ => match str_uint s with
         | Some d => Ok (Z.of_N (N.of_uint d))
         | None => Err ValueError
         end
  end.

Definition is_digit (c : N) : bool := ((48 <=? c) && (c <=? 57))%N.

(** [str.isdigit] restricted to ASCII digits (string.py:89, [check_int]).
    Simplification: Python also accepts non-ASCII digits; the caller only
    passes strings matched by [[a-z0-9]+] under IGNORECASE, which contain none. *)
Definition check_int (s : pstr) : bool :=
  match s with [] => false | _ => forallb is_digit s end.

(** ** String methods *)

(** [sep.join(ss)] *)
Fixpoint join (sep : pstr) (ss : list pstr) : pstr :=
  match ss with
  | [] => []
  | [s] => s
  | s :: ss' => s ++ sep ++ join sep ss'
  end.

(** [s.split(c)] for a one-character separator. *)
Fixpoint split_on (c : N) (s : pstr) : list pstr :=
  match s with
  | [] => [[]]
  | x :: s' =>
      if (x =? c)%N then [] :: split_on c s'
      else match split_on c s' with
           | w :: ws => (x :: w) :: ws
           | [] => [[x]]          (* unreachable: split_on is never empty *)
           end
  end.

(** [str.isspace] for one character, which is what [strip()] and [split()]
    without arguments treat as whitespace. *)
Definition is_space (c : N) : bool :=
  ((9 <=? c) && (c <=? 13) || (28 <=? c) && (c <=? 32) || (c =? 133) || (c =? 160)
   || (c =? 5760) || (8192 <=? c) && (c <=? 8202) || (c =? 8232) || (c =? 8233)
   || (c =? 8239) || (c =? 8287) || (c =? 12288))%N.

Fixpoint lstrip (s : pstr) : pstr :=
  match s with
  | c :: s' => if is_space c then lstrip s' else s
  | [] => []
  end.

(** [s.strip()] *)
Definition strip (s : pstr) : pstr := rev (lstrip (rev (lstrip s))).

(** [s.split()]: the maximal runs of non-whitespace characters. *)
Fixpoint split_ws_go (s : pstr) (cur : pstr) : list pstr :=
  match s with
  | [] => match cur with [] => [] | _ => [rev cur] end
  | c :: s' =>
      if is_space c then
        match cur with
        | [] => split_ws_go s' []
        | _ => rev cur :: split_ws_go s' []
        end
      else split_ws_go s' (c :: cur)
  end.

Definition split_ws (s : pstr) : list pstr := split_ws_go s [].

(** [s.replace("||", "|")]: left to right, non-overlapping. *)
Fixpoint replace_double (c : N) (s : pstr) : pstr :=
  match s with
  | x :: ((y :: s') as t) =>
      if (x =? c)%N && (y =? c)%N then c :: replace_double c s'
      else x :: replace_double c t
  | _ => s
  end.
