(** Theorems about the built-in operations of Python that the model relies on:
    C109. *)

From Coq Require Import List ZArith NArith String Bool Lia.
From Verif Require Import Py Operators Grammar PepSpec PythonSpec PythonFacts.
Import ListNotations.
Open Scope Z_scope.

(** ** C109 The built-in operations *)

(** Tuples and lists are compared at the first place where they differ. *)
Theorem C109_sequences {A} (c : A -> A -> Datatypes.comparison) :
  (forall x y, c x y = Eq <-> x = y) -> (forall x y, c y x = CompOpp (c x y)) ->
  forall xs ys, (Py.lex c xs ys = Eq <-> xs = ys)
    /\ (Py.lex c xs ys = Lt <-> before (fun x y => c x y = Lt) xs ys)
    /\ (Py.lex c xs ys = Gt <-> before (fun x y => c x y = Lt) ys xs).
Proof.
  exact (fun E O xs ys => conj (lex_eq c E xs ys) (conj (lex_lt c E xs ys)
    (iff_trans (lex_gt c O xs ys) (lex_lt c E ys xs)))).
Qed.
Print Assumptions C109_sequences.

Example C109_sequences_example :
  (forall x y, Z.compare x y = Eq <-> x = y) /\ (forall x y, Z.compare y x = CompOpp (Z.compare x y))
  /\ Py.lex Z.compare [1; 2; 3] [1; 10] = Lt /\ Py.lex Z.compare [1; 2] [1] = Gt.
Proof. split; [exact Z.compare_eq_iff|]. split; [intros; apply Z.compare_antisym|]. split; reflexivity. Qed.

(** So are strings, by code points. *)
Theorem C109_strings s t :
  (str_cmp s t = Eq <-> s = t) /\ (str_cmp s t = Lt <-> before N.lt s t) /\ (str_cmp s t = Gt <-> before N.lt t s)
  /\ (str_eqb s t = true <-> s = t).
Proof. exact (conj (str_cmp_eq s t) (conj (str_cmp_lt s t) (conj (str_cmp_gt s t) (str_eqb_iff s t)))). Qed.
Print Assumptions C109_strings.

Example C109_strings_example : str_cmp (lit "alpha") (lit "beta") = Lt /\ str_cmp (lit "rc") (lit "r") = Gt
  /\ before N.lt (lit "post") (lit "pre").
Proof. split; [reflexivity|]. split; [reflexivity|]. right. exists (lit "p"), 111%N, 114%N, (lit "st"), (lit "e"). repeat split. Qed.

(** Membership in sets of strings; dictionaries. *)
Theorem C109_lookup {A} s set (d : list (pstr * A)) v :
  (str_in s set = true <-> In s set) /\ (dict_get d s = Some v <-> first_entry d s v) /\ (dict_get d s = None <-> ~ In s (map fst d)).
Proof. exact (conj (str_in_iff s set) (conj (dict_get_some d s v) (dict_get_none d s))). Qed.
Print Assumptions C109_lookup.

Example C109_lookup_example : dict_get [(lit "a", 1); (lit "b", 2); (lit "a", 3)] (lit "a") = Some 1
  /\ dict_get [(lit "a", 1)] (lit "b") = None /\ str_in (lit "b") [lit "a"; lit "b"] = true.
Proof. repeat split. Qed.

(** Comprehensions apply a function to every element, up to the first failure. *)
Theorem C109_comprehension {A B} (f : A -> result B) xs :
  (forall ys, mapM f xs = Ok ys <-> Forall2 (fun x y => f x = Ok y) xs ys)
  /\ (forall e, mapM f xs = Err e <-> exists a x b ys, xs = a ++ x :: b /\ Forall2 (fun x y => f x = Ok y) a ys /\ f x = Err e).
Proof. exact (conj (mapM_ok f xs) (mapM_err f xs)). Qed.
Print Assumptions C109_comprehension.

Example C109_comprehension_example : mapM py_int [lit "1"; lit "20"] = Ok [1; 20] /\ mapM py_int [lit "1"; lit "x"; []] = Err ValueError.
Proof. split; reflexivity. Qed.

(** [xs[i]] *)
Theorem C109_get {A} (xs : list A) i :
  (forall a, py_get xs i = Ok a <-> exists k, names_place (List.length xs) i k /\ nth_error xs k = Some a)
  /\ (forall e, py_get xs i = Err e <-> e = IndexError /\ forall k, ~ names_place (List.length xs) i k).
Proof. exact (conj (get_iff xs i) (get_err xs i)). Qed.
Print Assumptions C109_get.

(** [xs[i] = y] *)
Theorem C109_set {A} (xs : list A) i y :
  (forall ys, py_set xs i y = Ok ys <->
    exists a x b, xs = a ++ x :: b /\ names_place (List.length xs) i (List.length a) /\ ys = a ++ y :: b)
  /\ (forall e, py_set xs i y = Err e <-> e = IndexError /\ forall k, ~ names_place (List.length xs) i k).
Proof. exact (conj (fun ys => set_iff xs ys i y) (set_err xs i y)). Qed.
Print Assumptions C109_set.

Example C109_index_example : names_place 3 (-1) 2 /\ py_get [10; 20; 30] (-1) = Ok 30 /\ py_get [10; 20; 30] 3 = Err IndexError
  /\ py_set [10; 20; 30] (-2) 0 = Ok [10; 0; 30] /\ py_set [10; 20; 30] (-4) 0 = Err IndexError.
Proof. unfold names_place. repeat split; lia. Qed.

(** [xs[:i]] and [xs[i:]] *)
Theorem C109_slices {A} (xs : list A) i :
  py_upto xs i ++ py_from xs i = xs /\ Z.of_nat (List.length (py_upto xs i)) = slice_bound (List.length xs) i.
Proof. exact (slices xs i). Qed.
Print Assumptions C109_slices.

Example C109_slices_example : py_upto [10; 20; 30] (-1) = [10; 20] /\ py_from [10; 20; 30] (-1) = [30]
  /\ py_upto [10; 20; 30] (-4) = [] /\ py_from [10; 20; 30] 5 = [].
Proof. repeat split. Qed.

(** [int(s)], of ASCII digits (C86 has the rest), *)
Theorem C109_int s :
  (forall z, py_int s = Ok z <-> digits s /\ number s = z) /\ (forall e, py_int s = Err e <-> e = ValueError /\ ~ digits s).
Proof. exact (conj (int_iff s) (int_err s)). Qed.
Print Assumptions C109_int.

(** [str(z)]: the shortest decimal numeral of the value, after a minus sign if
    it is negative, *)
Theorem C109_str z s : str_int z = s <->
  (0 <= z /\ numeral s /\ number s = z) \/ (z < 0 /\ exists t, s = 45%N :: t /\ numeral t /\ number t = - z).
Proof. exact (str_int_iff z s). Qed.
Print Assumptions C109_str.

(** and [s.isdigit()]. *)
Theorem C109_isdigit s : check_int s = true <-> s <> [] /\ forall c, In c s -> In c (lit "0123456789").
Proof. exact (check_int_iff s). Qed.
Print Assumptions C109_isdigit.

Example C109_int_example : py_int (lit "0042") = Ok 42 /\ digits (lit "0042") /\ py_int (lit "4x") = Err ValueError /\ py_int [] = Err ValueError
  /\ str_int 1024 = lit "1024" /\ numeral (lit "1024") /\ str_int (-7) = lit "-7" /\ check_int (lit "09") = true.
Proof.
  split; [reflexivity|]. split; [split; [discriminate|repeat constructor; discriminate]|]. do 3 (split; [reflexivity|]).
  split; [right; exists 49%N, (lit "024"); repeat split; try discriminate; repeat constructor; discriminate|]. split; reflexivity.
Qed.

(** [s.split(c)] is the only way to write [s] as [c.join(ws)] with no [c] in
    the pieces. *)
Theorem C109_split c s ws : split_on c s = ws <-> ws <> [] /\ (forall w, In w ws -> ~ In c w) /\ join [c] ws = s.
Proof. exact (split_iff c s ws). Qed.
Print Assumptions C109_split.

Example C109_split_example : split_on 46 (lit "1..20.") = [lit "1"; []; lit "20"; []] /\ join (lit ", ") [lit "a"; lit "b"; lit "c"] = lit "a, b, c".
Proof. split; reflexivity. Qed.

(** [s.strip()], [s.strip(chars)] and [s.rstrip(chars)] take away all of these
    characters from the ends, and nothing else. *)
Theorem C109_strip s t : strip s = t <->
  bare_start (fun c => In c spaces) t /\ bare_end (fun c => In c spaces) t
  /\ exists a b, s = a ++ t ++ b /\ blank a /\ blank b.
Proof. exact (strip_iff s t). Qed.
Print Assumptions C109_strip.

Theorem C109_strip_chars p s t :
  (strip_by p s = t <-> bare_start (fun c => p c = true) t /\ bare_end (fun c => p c = true) t
    /\ exists a b, s = a ++ t ++ b /\ forall c, In c (a ++ b) -> p c = true)
  /\ (rstrip_by p s = t <-> bare_end (fun c => p c = true) t /\ exists b, s = t ++ b /\ forall c, In c b -> p c = true).
Proof. exact (conj (strip_by_iff p s t) (rstrip_iff p s t)). Qed.
Print Assumptions C109_strip_chars.

(** [s.split()] finds the words. *)
Theorem C109_words s ws : split_ws s = ws <-> spaced s ws.
Proof. exact (split_ws_iff s ws). Qed.
Print Assumptions C109_words.

Example C109_words_example : strip (lit "  >= 1 ") = lit ">= 1" /\ split_ws (lit "  >= 1 ") = [lit ">="; lit "1"]
  /\ rstrip_by is_digit (lit "1.0rc12") = lit "1.0rc" /\ strip_by (fun c => (c =? 42)%N) (lit "=*") = lit "=".
Proof. repeat split. Qed.

(** [s.replace("||", "|")] *)
Theorem C109_replace c s t : replace_double c s = t <-> halved c s t.
Proof. exact (double_iff c s t). Qed.
Print Assumptions C109_replace.

Example C109_replace_example : replace_double 124 (lit "a||b|||c|d") = lit "a|b||c|d" /\ halved 124 (lit "|||") (lit "||").
Proof. split; [reflexivity|]. exact (halved_run 124 2 [] [] (fun r => @nil_cons _ _ _) (halved_nil 124)). Qed.
