(** Python's [int(str)] in full, and the [from_string] methods of epochs,
    releases and local segments on any string ([versions/segments/*.py]).
    Within versions they only see ASCII digits and letters, for which [Py.v]
    has a simpler [py_int]. *)

From Coq Require Import List ZArith NArith Bool.
From Verif Require Import Py Segments Operators.
Import ListNotations.

(** What Unicode says about characters outside ASCII: the value of a decimal
    digit ([str.isdecimal]), and [str.isdigit], which also has superscripts
    and the like.  The tables depend on the version of Python; the theorems
    hold for any. *)
Record unicode := Unicode { decimal : N -> option N; other_digit : N -> bool }.

(** CPython's [_PyUnicode_TransformDecimalAndSpaceToASCII] for one character;
    [None] for those no integer contains. *)
Definition ascii_char (u : unicode) (c : N) : option N :=
  if (c <? 127)%N then Some c
  else if is_space c then Some 32%N
  else match decimal u c with Some d => Some (48 + d)%N | None => None end.
Fixpoint ascii_string (u : unicode) (s : pstr) : option pstr :=
  match s with
  | [] => Some []
  | c :: s' =>
      match ascii_char u c, ascii_string u s' with
      | Some a, Some t => Some (a :: t)
      | _, _ => None
      end
  end.

(** C's [isspace]; not 28 to 31, which [str.isspace] has. *)
Definition ascii_space (c : N) : bool := ((9 <=? c) && (c <=? 13) || (c =? 32))%N.

(** CPython's [PyLong_FromString] in base 10: digits, and single underscores
    between them. *)
Fixpoint int_digits (n : Z) (s : pstr) : result Z :=
  match s with
  | [] => Err ValueError
  | c :: s' =>
      if is_digit c then
        let m := (10 * n + (Z.of_N c - 48))%Z in
        match s' with
        | [] => Ok m
        | d :: s'' => if (d =? 95)%N then int_digits m s'' else int_digits m s'
        end
      else Err ValueError
  end.

(** [int(s)], at epoch.py:44, release.py:423 and local.py:20. *)
Definition int_of (u : unicode) (s : pstr) : result Z :=
  match ascii_string u s with
  | None => Err ValueError
  | Some a =>
      match strip_by ascii_space a with
      | [] => Err ValueError
      | c :: t =>
          if (c =? 43)%N then int_digits 0 t
          else if (c =? 45)%N then rmap Z.opp (int_digits 0 t)
          else int_digits 0 (c :: t)
      end
  end.

(** string.py:89: [str.isdigit] *)
Definition all_digits (u : unicode) (s : pstr) : bool :=
  match s with [] => false | _ => forallb (fun c => is_digit c || (127 <? c)%N && other_digit u c) s end.

(** epoch.py:34-44 *)
Definition epoch_parse (u : unicode) (s : pstr) : result Z := int_of u s.

(** release.py:413-423, string.py:164-165 *)
Definition release_parse (u : unicode) (s : pstr) : result release :=
  let* parts := mapM (int_of u) (split_on 46 s) in release_new parts.

(** local.py:19-20 *)
Definition part_parse (u : unicode) (s : pstr) : result local_part :=
  if all_digits u s then let* z := int_of u s in Ok (LInt z) else Ok (LStr s).

(** local.py:103-113 *)
Definition local_parse (u : unicode) (s : pstr) : result (list local_part) :=
  let* parts := mapM (part_parse u) (split_separators s) in local_new parts.
