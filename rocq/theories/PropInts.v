(** Theorems about parsing segments on their own: C86, C87. *)

From Coq Require Import List ZArith NArith String Bool Lia.
From Verif Require Import Py Segments Ints IntSpec Grammar IntFacts.
Import ListNotations.
Open Scope Z_scope.

(** Some of Unicode: Arabic-Indic digits, and superscripts one, two and three. *)
Definition some_unicode : unicode := Unicode
  (fun c => if ((1632 <=? c) && (c <=? 1641))%N then Some (c - 1632)%N else None)
  (fun c => ((1632 <=? c) && (c <=? 1641) || (c =? 178) || (c =? 179) || (c =? 185))%N).
Example some_sane : sane some_unicode.
Proof.
  split.
  - intros c d. cbn [decimal other_digit some_unicode]. destruct ((1632 <=? c) && (c <=? 1641))%N eqn:E; [|discriminate].
    intros H. assert (d = c - 1632)%N by congruence. apply andb_prop in E as [E1 E2]. apply N.leb_le in E1, E2. repeat split; lia.
  - intros c H. cbn [other_digit some_unicode] in H. unfold is_space. rewrite !orb_true_iff, andb_true_iff, !N.leb_le, !N.eqb_eq in H.
    apply not_true_iff_false. rewrite !orb_true_iff, !andb_true_iff, !N.leb_le, !N.eqb_eq. lia.
Qed.

(** ** C86 Segments parse alone *)

(** Exactly what [Epoch.parse], [Release.parse] and [Local.parse] accept. *)
Theorem C86_epoch u s z : sane u -> (epoch_parse u s = Ok z <-> int_text u s z).
Proof. intros U. exact (int_of_iff u U s z). Qed.
Print Assumptions C86_epoch.

Theorem C86_release u s r : sane u ->
  (release_parse u s = Ok r <-> r <> [] /\ exists ws, s = join (lit ".") ws /\ Forall2 (int_text u) ws r).
Proof. exact (release_parse_iff u s r). Qed.
Print Assumptions C86_release.

Theorem C86_local u s l : sane u -> (local_parse u s = Ok l <-> exists ws, pieces s ws /\ Forall2 (part_text u) ws l).
Proof. exact (local_parse_iff u s l). Qed.
Print Assumptions C86_local.

(** A local segment is refused for a digit without a value, and nothing else. *)
Theorem C86_local_fails u s : sane u ->
  ((exists e, local_parse u s = Err e) <-> exists ws w, pieces s ws /\ In w ws /\ digits_only u w /\ Exists (odd_digit u) w).
Proof. exact (local_parse_fails u s). Qed.
Print Assumptions C86_local_fails.

Theorem C86_errors u s e : epoch_parse u s = Err e \/ release_parse u s = Err e \/ local_parse u s = Err e -> e = ValueError.
Proof. intros [H|[H|H]]; [exact (int_of_err u s e H)|exact (release_parse_err u s e H)|exact (local_parse_err u s e H)]. Qed.
Print Assumptions C86_errors.

(** More than versions contain: ["1.-2"], [" +1_0 "], U+0663; but not ["1__0"], nor two and superscript two as a local part. *)
Example C86_case :
  release_parse some_unicode (lit "1.-2") = Ok [1; -2]
  /\ epoch_parse some_unicode (lit " +1_0 ") = Ok 10
  /\ epoch_parse some_unicode [1635%N] = Ok 3
  /\ epoch_parse some_unicode (lit "1__0") = Err ValueError
  /\ local_parse some_unicode (lit "") = Ok [LStr (lit "")]
  /\ local_parse some_unicode (lit "a b-07") = Ok [LStr (lit "a b"); LInt 7]
  /\ local_parse some_unicode [50%N; 178%N] = Err ValueError.
Proof. now vm_compute. Qed.

(** ** C87 Segments read back from their strings *)

Theorem C87_epoch u z : sane u -> epoch_parse u (str_int z) = Ok z.
Proof. intros U. exact (proj2 (int_of_iff u U _ z) (int_string u z)). Qed.
Print Assumptions C87_epoch.

Theorem C87_release u r : sane u -> r <> [] -> release_parse u (rel_to_string r) = Ok r.
Proof. exact (release_round u r). Qed.
Print Assumptions C87_release.

(** Not negative numbers, text of digits, or text with separators. *)
Theorem C87_local u l : sane u -> l <> [] -> (local_parse u (local_to_string l) = Ok l <-> Forall (readable u) l).
Proof. exact (local_round u l). Qed.
Print Assumptions C87_local.

Example C87_case :
  release_parse some_unicode (rel_to_string [0; -3; 12]) = Ok [0; -3; 12]
  /\ local_parse some_unicode (local_to_string [LStr (lit "X"); LInt 4; LStr (lit "")]) = Ok [LStr (lit "X"); LInt 4; LStr (lit "")]
  /\ local_parse some_unicode (local_to_string [LInt (-4)]) = Ok [LStr (lit ""); LInt 4]
  /\ local_parse some_unicode (local_to_string [LStr (lit "07")]) = Ok [LInt 7].
Proof. now vm_compute. Qed.

(** The simpler functions used for versions agree on what can reach them. *)
Theorem C87_simple u s : sane u ->
  (Forall (fun c => digit c \/ c = 46%N) s -> release_parse u s = rel_from_string s)
  /\ (Forall digit s -> epoch_parse u s = py_int s)
  /\ (Forall (fun c => (c < 128)%N) s -> local_parse u s = local_from_string s).
Proof. intros U. split; [exact (release_simple u s U)|]. split; [exact (int_of_digits u s U)|exact (local_simple u s U)]. Qed.
Print Assumptions C87_simple.

Example C87_simple_case : rel_from_string (lit "1..2") = Err ValueError /\ release_parse some_unicode (lit "1..2") = Err ValueError
  /\ py_int (lit "007") = Ok 7 /\ local_from_string (lit "ubuntu.1") = Ok [LStr (lit "ubuntu"); LInt 1].
Proof. now vm_compute. Qed.
