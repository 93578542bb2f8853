(** C110: what the messages of failed parsing name. *)

From Coq Require Import List ZArith NArith String Bool.
From Verif Require Import Py Segments Version VersionSets Operators Specifiers Regex Patterns Parsers Messages Spec Grammar Clauses SegmentSpec MessageSpec AccessFacts MessageFacts.
Import ListNotations.
Open Scope Z_scope.

(** Without the messages, these are the parsers of the other theorems. *)
Theorem C110_same name : (forall c s, silent (told_parse_tag c s) = parse_tag c s) /\ (forall s, silent (told_parse_version name s) = parse_version s)
  /\ (forall s, silent (told_parse_specifier name s) = parse_specifier s) /\ forall s, silent (told_parse_version_set name s) = parse_version_set s.
Proof. exact (told_same name). Qed.
Print Assumptions C110_same.

(** Tags: the whole string and the class, or the phase and the class. *)
Theorem C110_tag c s e m : told_parse_tag c s = Told e m <->
  (e = ParseTagError /\ (forall w n, ~ spelled_tag s w n) /\ m = Some (cannot_parse s (class_called c)))
  \/ exists w n, spelled_tag s w n /\ ~ In w (tag_words c) /\ e = ValueError /\ m = Some (phase_refused (long_form w) c).
Proof. exact (tag_told c s e m). Qed.
Print Assumptions C110_tag.

Example C110_tag_case : told_parse_tag AnyTag (lit "1.x") = Told ParseTagError (Some (lit "can not parse `1.x` to `Tag`"))
  /\ told_parse_tag DevTag (lit "rc.1") = Told ValueError (Some (lit "phase `rc` is not allowed in `DevTag`"))
  /\ told_parse_tag PostTag (lit "a1") = Told ValueError (Some (lit "phase `alpha` is not allowed in `PostTag`"))
  /\ told_parse_tag PreTag (lit "RC1") = Told ValueError (Some (lit "phase `RC` is not allowed in `PreTag`")).
Proof. now vm_compute. Qed.

(** Versions: the whole string and the class, or the first word that is not in
    lower case and the class of its tag. *)
Theorem C110_version name s e m : told_parse_version name s = Told e m <->
  (e = ParseVersionError /\ (forall t, tree t -> text t <> s) /\ m = Some (cannot_parse s name))
  \/ exists t w c, tree t /\ text t = s /\ first_capital t w c /\ e = ValueError /\ m = Some (phase_refused w c).
Proof. exact (version_told name s e m). Qed.
Print Assumptions C110_version.

Example C110_version_case : told_parse_version (lit "Version") (lit "1.x") = Told ParseVersionError (Some (lit "can not parse `1.x` to `Version`"))
  /\ told_parse_version (lit "Version") (lit "1.0a1.POST2.Dev3") = Told ValueError (Some (lit "phase `POST` is not allowed in `PostTag`"))
  /\ told_parse_version (lit "Version") (lit "v1.0-1.DEV") = Told ValueError (Some (lit "phase `DEV` is not allowed in `DevTag`"))
  /\ told_parse_version (lit "Version") (lit "1.0Rc1.DEV") = Told ValueError (Some (lit "phase `Rc` is not allowed in `PreTag`")).
Proof. now vm_compute. Qed.

(** Specifiers: the message is about the first bad clause. It names the first
    word of its version that is not in lower case, or its version if that ends
    in a capital X, or the clause itself, or says that [~=] needs more than one
    segment. *)
Theorem C110_specifier name s e m : told_parse_specifier name s = Told e m <->
  exists c b, unbroken c /\ right_edge b /\ (exists m', m = Some m' /\ complaint name c e m')
  /\ (respaced s (c ++ b)
      \/ exists a sep q, respaced s (a ++ sep ++ c ++ b) /\ parse_specifier a = Ok q
           /\ (sep = [44%N] \/ sep = [124%N; 124%N] \/ (sep = [124%N] /\ forall r, c ++ b <> 124%N :: r))).
Proof. exact (specifier_told name s e m). Qed.
Print Assumptions C110_specifier.

(** A bad clause has one error and one message. *)
Theorem C110_unique name c e e' m m' : complaint name c e m -> complaint name c e' m' -> e = e' /\ m = m'.
Proof. exact (complaint_unique name c e e' m m'). Qed.
Print Assumptions C110_unique.

Example C110_specifier_case : told_parse_specifier (lit "Version") (lit "> 1, ! = 1.X || ?") = Told ParseVersionError (Some (lit "can not parse `1.X` to `Version`"))
  /\ told_parse_specifier (lit "Version") (lit "1 || > 1 + local, ?") = Told ParseSpecificationError (Some (lit "can not parse `>1+local` to `specification`"))
  /\ told_parse_specifier (lit "Version") (lit "1, ~= 1, x") = Told ValueError (Some (lit "`~=` can not be used with with a single version segment"))
  /\ told_parse_specifier (lit "Version") (lit "~= 1.A1.DEV, x") = Told ValueError (Some (lit "phase `A` is not allowed in `PreTag`"))
  /\ told_parse_specifier (lit "Version") [] = Told ParseSpecificationError (Some (lit "can not parse `` to `specification`")).
Proof. now vm_compute. Qed.
