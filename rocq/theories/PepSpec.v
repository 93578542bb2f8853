(** PEP 440, as far as the theorems need it: canonical strings (appendix B of
    the PEP, with local versions) and the order of versions. *)

From Coq Require Import List ZArith NArith String Bool.
From Verif Require Import Py Segments Version Spec.
Import ListNotations.
Open Scope Z_scope.

(** ** Canonical strings *)

(** No leading zeros. *)
Definition numeral (s : pstr) : Prop :=
  s = lit "0" \/ exists c t, s = c :: t /\ (49 <= c <= 57)%N /\ Forall (fun c => 48 <= c <= 57)%N t.

Definition small (c : N) : Prop := (97 <= c <= 122)%N.
Definition word (s : pstr) : Prop :=
  numeral s \/ Forall (fun c => small c \/ (48 <= c <= 57)%N) s /\ Exists small s.

Definition dotted (w : pstr) (ws : list pstr) : pstr := w ++ List.concat (map (fun x => lit "." ++ x) ws).

(** Nothing, or one of the prefixes and a number. *)
Definition suffix (prefixes : list pstr) (s : pstr) : Prop :=
  s = [] \/ exists p n, In p prefixes /\ numeral n /\ s = p ++ n.

Definition pep440 (s : pstr) : Prop :=
  exists epoch release pre post dev local,
  s = epoch ++ release ++ pre ++ post ++ dev ++ local
  /\ (epoch = [] \/ exists n, numeral n /\ n <> lit "0" /\ epoch = n ++ lit "!")
  /\ (exists n ns, numeral n /\ Forall numeral ns /\ release = dotted n ns)
  /\ suffix [lit "a"; lit "b"; lit "rc"] pre
  /\ suffix [lit ".post"] post
  /\ suffix [lit ".dev"] dev
  /\ (local = [] \/ exists w ws, word w /\ Forall word ws /\ local = lit "+" ++ dotted w ws).

(** Words of a local version in small letters. *)
Definition small_part (p : local_part) : Prop :=
  match p with LInt _ => True | LStr s => Forall (fun c => small c \/ (48 <= c <= 57)%N) s end.
Definition small_local (v : version) : Prop :=
  match v_local v with None => True | Some l => Forall small_part l end.

(** ** Order *)

(** a, b, and whatever is called rc. *)
Definition letter (t : tag) : Z :=
  if list_eq_dec N.eq_dec (phase t) (lit "alpha") then 1
  else if list_eq_dec N.eq_dec (phase t) (lit "beta") then 2 else 3.

(** Place among the versions of one release: .dev, a, b, rc, none; then .post;
    then .dev below none. *)
Definition rank (v : version) : list Z :=
  match v_pre v, v_post v, v_dev v with
  | Some t, _, _ => [letter t; value t]
  | None, None, Some _ => [0; 0]
  | None, _, _ => [4; 0]
  end
  ++ [match v_post v with None => -1 | Some t => value t end]
  ++ match v_dev v with None => [1; 0] | Some t => [0; value t] end.

Fixpoint first_less (l m : list Z) : Prop :=
  match l, m with
  | x :: l', y :: m' => x < y \/ x = y /\ first_less l' m'
  | _, _ => False
  end.

(** Capital letters of local versions do not matter. *)
Definition to_small (c : N) : N := if (65 <=? c)%N && (c <=? 90)%N then (c + 32)%N else c.
Definition small_words (l : option (list local_part)) : option (list local_part) :=
  option_map (map (fun p => match p with LInt z => LInt z | LStr s => LStr (map to_small s) end)) l.

Definition pep_before (v w : version) : Prop :=
  v_epoch v < v_epoch w \/ v_epoch v = v_epoch w /\ (
  rel_before (v_release v) (v_release w) \/ rel_same (v_release v) (v_release w) /\ (
  first_less (rank v) (rank w) \/ rank v = rank w /\ local_before (small_words (v_local v)) (small_words (v_local w)))).
Definition pep_same (v w : version) : Prop :=
  v_epoch v = v_epoch w /\ rel_same (v_release v) (v_release w) /\ rank v = rank w
  /\ small_words (v_local v) = small_words (v_local w).

(** The phases of canonical strings. *)
Definition usual (v : version) : Prop :=
  (forall t, v_pre v = Some t -> In (phase t) (map lit ["alpha"; "beta"; "rc"]%string))
  /\ (forall t, v_post v = Some t -> phase t = lit "post").
