(** Semantic Versioning 2.0.0: the strings (§2, 9, 10) and their precedence (§11). *)

From Coq Require Import List ZArith NArith String Bool.
From Verif Require Import Py Segments Version Spec.
Import ListNotations.
Local Open Scope Z_scope.

(** The identifiers of pre-releases: numbers, and words that are not numbers. *)
Inductive ident := Num (z : Z) | Word (s : pstr).

Record semver := SemVer { sem_major : Z; sem_minor : Z; sem_patch : Z; sem_pre : list ident; sem_build : list pstr }.

Definition ident_char (c : N) : Prop := (48 <= c <= 57 \/ 65 <= c <= 90 \/ 97 <= c <= 122 \/ c = 45)%N.

Definition ident_ok (i : ident) : Prop :=
  match i with
  | Num z => 0 <= z
  | Word s => Forall ident_char s /\ Exists (fun c => ~ (48 <= c <= 57)%N) s
  end.

Definition sem_ok (x : semver) : Prop :=
  0 <= sem_major x /\ 0 <= sem_minor x /\ 0 <= sem_patch x
  /\ Forall ident_ok (sem_pre x) /\ Forall (fun b => b <> [] /\ Forall ident_char b) (sem_build x).

Definition ident_str (i : ident) : pstr := match i with Num z => str_int z | Word s => s end.

Definition sem_string (x : semver) : pstr :=
  join (lit ".") [str_int (sem_major x); str_int (sem_minor x); str_int (sem_patch x)]
  ++ match sem_pre x with [] => [] | l => lit "-" ++ join (lit ".") (map ident_str l) end
  ++ match sem_build x with [] => [] | l => lit "+" ++ join (lit ".") l end.

Definition ident_before (i j : ident) : Prop :=
  match i, j with
  | Num y, Num z => y < z
  | Num _, Word _ => True
  | Word _, Num _ => False
  | Word s, Word t => dict_before N.lt s t
  end.

Definition sem_before (x y : semver) : Prop :=
  sem_major x < sem_major y \/ sem_major x = sem_major y /\ (
  sem_minor x < sem_minor y \/ sem_minor x = sem_minor y /\ (
  sem_patch x < sem_patch y \/ sem_patch x = sem_patch y /\
  match sem_pre x, sem_pre y with
  | [], _ => False
  | _, [] => True
  | l, m => dict_before ident_before l m
  end)).

(** A string of Semantic Versioning. *)
Definition semver_text (s : pstr) : Prop := exists x, sem_ok x /\ sem_string x = s.

(** No letters outside ASCII in the local part. *)
Definition ascii_local (v : version) : Prop :=
  match v_local v with
  | None => True
  | Some l => Forall (fun p => match p with LInt _ => True | LStr s => Forall (fun c => c < 128)%N s end) l
  end.
