(** The documented grammar of single specifications, independently of the
    regular expressions: an operator and a version or a version ending in a
    wildcard. *)

From Coq Require Import List ZArith NArith String Bool.
From Verif Require Import Py Segments Version VersionSets Operators Specifiers Grammar Spec.
Import ListNotations.

(** [wild c t u]: [u] is [t] with its last number, 0, replaced by the wildcard
    [c]. *)
Inductive wild (c : N) : gversion -> gversion -> Prop :=
| wild_any v e :
    wild c (GVersion v e [48%N] [] None None None None) (GVersion v e [c] [] None None None None)
| wild_release v e f m :
    wild c (GVersion v e f (m ++ [[48%N]]) None None None None) (GVersion v e f (m ++ [[c]]) None None None None)
| wild_pre v e f m o w s :
    wild c (GVersion v e f m (Some (GTag o w (Some (s, [48%N])))) None None None)
           (GVersion v e f m (Some (GTag o w (Some (s, [c])))) None None None)
| wild_implicit v e f m p :
    wild c (GVersion v e f m p (Some (Implicit [48%N])) None None) (GVersion v e f m p (Some (Implicit [c])) None None)
| wild_post v e f m p o w s :
    wild c (GVersion v e f m p (Some (Explicit (GTag o w (Some (s, [48%N]))))) None None)
           (GVersion v e f m p (Some (Explicit (GTag o w (Some (s, [c]))))) None None)
| wild_dev v e f m p q o w s :
    wild c (GVersion v e f m p q (Some (GTag o w (Some (s, [48%N])))) None)
           (GVersion v e f m p q (Some (GTag o w (Some (s, [c])))) None).

Definition wildcard (c : N) : Prop := c = 42%N \/ c = 120%N.

(** Operators taking any version. *)
Definition equal_ops : list (pstr * op_type) :=
  [(lit "", EQUAL); (lit "=", EQUAL); (lit "==", DOUBLE_EQUAL); (lit "!=", NOT_EQUAL)].
(** Operators taking a version without a local part. *)
Definition public_ops : list (pstr * op_type) :=
  [(lit "<", LESS); (lit "<=", LESS_OR_EQUAL); (lit ">", GREATER); (lit ">=", GREATER_OR_EQUAL);
   (lit "^", CARET); (lit "~", TILDE); (lit "~=", TILDE_EQUAL)].
(** Operators taking a version with a wildcard. *)
Definition wild_ops : list (pstr * op_type) :=
  [(lit "", WILDCARD_EQUAL); (lit "=", WILDCARD_EQUAL); (lit "==", WILDCARD_DOUBLE_EQUAL); (lit "!=", WILDCARD_NOT_EQUAL)].

(** [clause s t v]: the string [s] is an operator of type [t] before the text
    of the tree [v]. *)
Inductive clause (s : pstr) (t : op_type) (v : gversion) : Prop :=
| clause_equal o : In (o, t) equal_ops -> tree v -> s = o ++ text v -> clause s t v
| clause_public o : In (o, t) public_ops -> tree v -> g_local v = None -> s = o ++ text v -> clause s t v
| clause_wild o c u : In (o, t) wild_ops -> wildcard c -> wild c v u -> tree v -> s = o ++ text u -> clause s t v.

(** A wildcard written as a capital X. *)
Definition capital_wild (s : pstr) : Prop :=
  exists o t v u, In (o, t) wild_ops /\ wild 88 v u /\ tree v /\ s = o ++ text u.

(** ** Whole specifications *)

(** The characters Python treats as whitespace. *)
Definition white (c : N) : Prop :=
  In c [9; 10; 11; 12; 13; 28; 29; 30; 31; 32; 133; 160; 5760; 8192; 8193; 8194; 8195; 8196; 8197; 8198; 8199; 8200; 8201; 8202;
        8232; 8233; 8239; 8287; 12288]%N.

(** Two strings that differ in whitespace only. *)
Inductive respaced : pstr -> pstr -> Prop :=
| respaced_refl s : respaced s s
| respaced_sym s u : respaced s u -> respaced u s
| respaced_trans s u w : respaced s u -> respaced u w -> respaced s w
| respaced_insert a c b : white c -> respaced (a ++ b) (a ++ c :: b).

(** Clauses joined with commas. *)
Fixpoint conjuncts (first : pstr) (rest : list pstr) : pstr :=
  match rest with
  | [] => first
  | c :: rest' => first ++ [44%N] ++ conjuncts c rest'
  end.

(** Alternatives joined with pipes, each single or double. *)
Fixpoint alternatives (first : pstr) (rest : list (bool * pstr)) : pstr :=
  match rest with
  | [] => first
  | (double, c) :: rest' => first ++ (if double then [124%N; 124%N] else [124%N]) ++ alternatives c rest'
  end.

(** A string without commas, pipes and whitespace. *)
Definition unbroken (s : pstr) : Prop := Forall (fun c => c <> 44%N /\ c <> 124%N /\ ~ white c) s.

(** [specification s css]: apart from whitespace, [s] is the alternatives
    [css], each a list of clauses. *)
Definition specification (s : pstr) (css : list (list pstr)) : Prop :=
  exists c cs alts, css = (c :: cs) :: map (fun x => fst (snd x) :: snd (snd x)) alts
    /\ Forall (Forall (fun c => c <> [] /\ unbroken c)) css
    /\ respaced s (alternatives (conjuncts c cs) (map (fun x => (fst x, conjuncts (fst (snd x)) (snd (snd x)))) alts)).

(** A group of one member is that member. *)
Definition grouped (mk : list spec -> spec) (ss : list spec) : spec := match ss with [s] => s | _ => mk ss end.

(** The specifier some clauses stand for. *)
Definition clause_spec (x : op_type * gversion) : spec := One (fst x) (reading (snd x)).
Definition spec_of (xss : list (list (op_type * gversion))) : spec :=
  grouped AnyOf (map (fun xs => grouped AllOf (map clause_spec xs)) xss).

(** A clause in lower case with a version its operator accepts. *)
Definition proper_clause (c : pstr) (x : op_type * gversion) : Prop :=
  clause c (fst x) (snd x) /\ lower_case (snd x) /\ (fst x = TILDE_EQUAL -> g_more (snd x) <> []).

(** A separator or the end of the string. *)
Definition left_edge (a : pstr) : Prop := a = [] \/ exists b c, a = b ++ [c] /\ (c = 44%N \/ c = 124%N).
Definition right_edge (b : pstr) : Prop := b = [] \/ exists c r, b = c :: r /\ (c = 44%N \/ c = 124%N).
(** [c] is one of the clauses of [s]. *)
Definition piece (c s : pstr) : Prop := exists a b, respaced s (a ++ c ++ b) /\ left_edge a /\ right_edge b.

(** Alternatives are separated by one pipe or two. *)
Definition pipes (double : bool) : pstr := if double then [124%N; 124%N] else [124%N].

(** ** Strings of specifiers *)

(** The last number of a version. *)
Definition last_number (v : version) : Z :=
  match v_dev v with
  | Some t => value t
  | None => match v_post v with
            | Some t => value t
            | None => match v_pre v with Some t => value t | None => last (v_release v) 0%Z end
            end
  end.

(** Operators whose strings keep their version: a wildcard takes the place of a
    last number zero. *)
Definition spelled (t : op_type) (v : version) : Prop := wf v /\ (op_is_wildcard t = true -> v_local v = None /\ last_number v = 0%Z).

(** A version with its last number forgotten. *)
Definition change_last {A} (f : A -> A) (l : list A) : list A := match rev l with [] => [] | x :: r => rev (f x :: r) end.
Definition zeroed (t : tag) : tag := Tag (phase t) 0%Z.
Definition forget_part (p : local_part) : local_part := match p with LInt _ => LInt 0%Z | LStr s => LStr (rstrip_by is_digit s) end.
Definition forget_last (v : version) : version :=
  let (e, r, p, q, d, l) := v in
  match l with
  | Some l => Version e r p q d (Some (change_last forget_part l))
  | None => match d with
            | Some t => Version e r p q (Some (zeroed t)) None
            | None => match q with
                      | Some t => Version e r p (Some (zeroed t)) None None
                      | None => match p with
                                | Some t => Version e r (Some (zeroed t)) None None None
                                | None => Version e (change_last (fun _ => 0%Z) r) None None None None
                                end
                      end
            end
  end.

(** What the string of a specifier says: wildcards forget the last number. *)
Fixpoint blurred (s : spec) : spec :=
  match s with
  | Never => Never
  | Always => Always
  | One t v => One t (if op_is_wildcard t then forget_last v else v)
  | AnyOf ss => AnyOf (map blurred ss)
  | AllOf ss => AllOf (map blurred ss)
  end.

(** ** Failures *)

(** The error of a clause that is none, or whose version or operator is refused. *)
Definition clause_error (c : pstr) (e : error) : Prop :=
  (e = ValueError /\ exists t v, clause c t v /\ (~ lower_case v \/ (t = TILDE_EQUAL /\ g_more v = [])))
  \/ (e = ParseVersionError /\ capital_wild c)
  \/ (e = ParseSpecificationError /\ (forall t v, ~ clause c t v) /\ ~ capital_wild c).

(** ** Strings of version sets *)

(** Versions whose long string reads back. *)
Definition printable (v : version) : Prop := wf v /\ forall t, v_pre v = Some t -> phase t <> lit "candidate".

(** Everything but a version. *)
Definition hole (a : vset) : Prop :=
  exists v w, a = Union [Range None (Some v) false false; Range (Some w) None false false] /\ v_eq v w = true.

(** Sets whose strings are meant to parse: bounds are writable, and only points
    and excluded versions have local parts. *)
Definition readable (P : version -> Prop) (a : vset) : Prop :=
  canonical a /\ a <> Empty /\ Forall P (bounds a)
  /\ (hole a \/ Forall (fun i => match i with Point _ => True | Range _ _ _ _ => Forall (fun v => v_local v = None) (item_bounds i) end) (extract a)).
