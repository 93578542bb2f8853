(** What Python's documentation says about [int(str)]. *)

From Coq Require Import List ZArith NArith Bool.
From Verif Require Import Py Segments Ints.
Import ListNotations.
Open Scope Z_scope.

(** True of every version of Unicode: these are not ASCII characters, values
    are below ten, decimal digits are digits, and digits are not spaces. *)
Definition sane (u : unicode) : Prop :=
  (forall c d, decimal u c = Some d -> (127 < c)%N /\ (d < 10)%N /\ other_digit u c = true)
  /\ forall c, other_digit u c = true -> is_space c = false.

Definition decimal_value (u : unicode) (c d : N) : Prop :=
  (48 <= c <= 57)%N /\ d = (c - 48)%N \/ (127 < c)%N /\ decimal u c = Some d.
Definition int_space (c : N) : Prop := is_space c = true /\ ~ (28 <= c <= 31)%N.

(** Digits with single underscores between them. *)
Inductive digit_run (u : unicode) : pstr -> list N -> Prop :=
| run_last c d : decimal_value u c d -> digit_run u [c] [d]
| run_next c d s ds : decimal_value u c d -> digit_run u s ds -> digit_run u (c :: s) (d :: ds)
| run_under c d s ds : decimal_value u c d -> digit_run u s ds -> digit_run u (c :: 95%N :: s) (d :: ds).

Definition in_decimal (ds : list N) : Z := fold_left (fun n d => 10 * n + Z.of_N d) ds 0.

(** Spaces, a sign, digits, spaces. *)
Definition int_text (u : unicode) (s : pstr) (z : Z) : Prop :=
  exists a sign body b ds, s = a ++ sign ++ body ++ b /\ Forall int_space a /\ Forall int_space b /\ digit_run u body ds
  /\ ((sign = [] \/ sign = [43%N]) /\ z = in_decimal ds \/ sign = [45%N] /\ z = - in_decimal ds).

(** ** Local parts *)

Definition separator (c : N) : Prop := c = 46%N \/ c = 45%N \/ c = 95%N.
Definition digits_only (u : unicode) (s : pstr) : Prop :=
  s <> [] /\ Forall (fun c => (48 <= c <= 57)%N \/ (127 < c)%N /\ other_digit u c = true) s.
(** The parts that read back from their strings. *)
Definition readable (u : unicode) (p : local_part) : Prop :=
  match p with
  | LInt z => 0 <= z
  | LStr s => Forall (fun c => ~ separator c) s /\ ~ digits_only u s
  end.

(** The pieces of a string between its separators. *)
Inductive pieces : pstr -> list pstr -> Prop :=
| piece_last w : Forall (fun c => ~ separator c) w -> pieces w [w]
| piece_next w c s ws : Forall (fun c => ~ separator c) w -> separator c -> pieces s ws -> pieces (w ++ c :: s) (w :: ws).

(** Digits are numbers; anything else, even nothing, is text. *)
Definition part_text (u : unicode) (s : pstr) (p : local_part) : Prop :=
  digits_only u s /\ (exists z, p = LInt z /\ int_text u s z) \/ ~ digits_only u s /\ p = LStr s.

(** A digit without a decimal value, such as a superscript. *)
Definition odd_digit (u : unicode) (c : N) : Prop := ~ (48 <= c <= 57)%N /\ decimal u c = None.
