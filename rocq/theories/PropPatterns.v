(** Theorems about the pattern texts of patterns.py, as [re.compile] reads them:
    C94-C95. *)

From Coq Require Import List ZArith NArith String Bool.
From Verif Require Import Py Segments Version Regex Patterns Grammar Clauses PatternText Compile PatternFacts PatternTheorems.
Import ListNotations.

(** ** C94 *)

Theorem C94_version t : tree t -> exists cs, text_fullmatch VERSION_PATTERN (text t) = Some (Some cs)
  /\ group_of (lit "epoch") cs = g_epoch t
  /\ group_of (lit "release") cs = Some (release_text (g_first t) (g_more t))
  /\ group_of (lit "pre") cs = option_map tag_word (g_pre t)
  /\ group_of (lit "post_implicit") cs = match g_post t with Some (Implicit d) => Some d | _ => None end
  /\ group_of (lit "post") cs = match g_post t with Some (Explicit u) => Some (tag_word u) | _ => None end
  /\ group_of (lit "dev") cs = option_map tag_word (g_dev t)
  /\ group_of (lit "local") cs = option_map local_text (g_local t).
Proof. exact (version_groups t). Qed.
Print Assumptions C94_version.

Theorem C94_refused s : text_fullmatch VERSION_PATTERN s = Some None <-> ~ exists t, tree t /\ text t = s.
Proof. exact (version_refused s). Qed.
Print Assumptions C94_refused.

Theorem C94_public s : (exists cs, text_fullmatch PUBLIC_VERSION_PATTERN s = Some (Some cs)) <-> exists t, tree t /\ g_local t = None /\ text t = s.
Proof. exact (public_language s). Qed.
Print Assumptions C94_public.

Theorem C94_tag w d : w <> [] -> Forall letter w -> opt (fun x => opt separator (fst x) /\ digits (snd x)) d ->
  exists cs, text_fullmatch TAG_PATTERN (w ++ spell (fun x => one (fst x) ++ snd x) d) = Some (Some cs)
  /\ group_of (lit "phase") cs = Some w /\ group_of (lit "value") cs = option_map snd d.
Proof. exact (tag_groups w d). Qed.
Print Assumptions C94_tag.

Theorem C94_tag_refused s : text_fullmatch TAG_PATTERN s = Some None
  <-> ~ exists w d, w <> [] /\ Forall letter w /\ opt (fun x => opt separator (fst x) /\ digits (snd x)) d /\ s = w ++ spell (fun x => one (fst x) ++ snd x) d.
Proof. exact (tag_refused s). Qed.
Print Assumptions C94_tag_refused.

Theorem C94_patterns s :
  text_fullmatch TAG_PATTERN s = Some (option_map named (fullmatch TAG s))
  /\ text_fullmatch PUBLIC_VERSION_PATTERN s = Some (option_map named (fullmatch PUBLIC_VERSION s))
  /\ text_fullmatch VERSION_PATTERN s = Some (option_map named (fullmatch VERSION s))
  /\ text_fullmatch WILDCARD_VERSION_PATTERN s = Some (option_map named (fullmatch WILDCARD_VERSION s))
  /\ text_fullmatch WILDCARD_SPECIFICATION_PATTERN s = Some (option_map named (fullmatch WILDCARD_SPECIFICATION s))
  /\ text_fullmatch ORDER_SPECIFICATION_PATTERN s = Some (option_map named (fullmatch ORDER_SPECIFICATION s))
  /\ text_fullmatch CARET_SPECIFICATION_PATTERN s = Some (option_map named (fullmatch CARET_SPECIFICATION s))
  /\ text_fullmatch TILDE_SPECIFICATION_PATTERN s = Some (option_map named (fullmatch TILDE_SPECIFICATION s))
  /\ text_fullmatch EQUAL_SPECIFICATION_PATTERN s = Some (option_map named (fullmatch EQUAL_SPECIFICATION s)).
Proof. exact (all_agree s). Qed.
Print Assumptions C94_patterns.

Theorem C94_groups g cs : group_of (group_name g) (named cs) = get_group g cs.
Proof. exact (named_group g cs). Qed.
Print Assumptions C94_groups.

(** A version with every part, a long s in [post], a string that is refused and
    a tag followed by a newline, which [$] would let pass but [fullmatch] does
    not. *)
Example C94_case :
  option_map (option_map (fun cs => map (fun g => group_of (lit g) cs) ["epoch"; "release"; "pre"; "post_implicit"; "post"; "dev"; "local"]%string))
    (text_fullmatch VERSION_PATTERN (lit "V1!2.0-RC.3-4dev+ubuntu.7"))
  = Some (Some [Some (lit "1"); Some (lit "2.0"); Some (lit "RC.3"); Some (lit "4"); None; Some (lit "dev"); Some (lit "ubuntu.7")])
  /\ option_map (option_map (group_of (lit "post"))) (text_fullmatch VERSION_PATTERN (lit "1.0.po" ++ [383%N] ++ lit "t1"))
     = Some (Some (Some (lit "po" ++ [383%N] ++ lit "t1")))
  /\ text_fullmatch VERSION_PATTERN (lit "1..0") = Some None
  /\ text_fullmatch TAG_PATTERN (lit "rc1" ++ [10%N]) = Some None
  /\ compile (lit "(?P<a>x)(?P<a>y)") = None /\ compile (lit "x**") = None /\ compile (lit "(?:x") = None.
Proof. now vm_compute. Qed.

(** Texts that Python refuses or reads in ways the patterns do not need. *)
Example C94_outside :
  forallb (fun t => match compile (lit t) with None => true | Some _ => false end)
    ["(?P<a b>x)"; "(?P<1a>x)"; "(?P<>x)"; "(?P<a"; "(x)"; "(?P<a>x)(?P<b>y)(?P<a>z)"; "(?:x"; "x)"; "x*?"; "x+?"; "x??"; "x*+"; "x++"; "x?+"; "*"; "x|+"; "^*"; "$?"; "(?:?)";
     "[]"; "[^a]"; "[[a]"; "[b-a]"; "[a"; "[a-"; "\d"; "[\w]"; "\0"; "\9"; "\A"; "\Z"; "\a"; "\z"; "\"; "."; "x{2}"]%string = true
  /\ compile (lit "(?P<aAzZ09>\/\:\@\[\`\{)") = Some (XGroup (Some (lit "aAzZ09")) (XSeq (map XChar [47; 58; 64; 91; 96; 123]%N)))
  /\ compile (lit "(?P<a_1>[a-c\]_-]) # any" ++ [10%N] ++ lit "(?:x|\. y+)* ") = Some (XSeq [XGroup (Some (lit "a_1")) (XSet [(97, 99); (93, 93); (95, 95); (45, 45)]%N);
       XStar (XGroup None (XOr [XChar 120%N; XSeq [XChar 46%N; XPlus (XChar 121%N)]]))]).
Proof. repeat split; now vm_compute. Qed.

(** ** C95 *)

Theorem C95_order s o u :
  (exists cs, text_fullmatch ORDER_SPECIFICATION_PATTERN s = Some (Some cs) /\ group_of (lit "operator") cs = Some o /\ group_of (lit "version") cs = Some u)
  <-> In o (map lit ["<="; ">="; "<"; ">"]%string) /\ (exists v, tree v /\ g_local v = None /\ text v = u) /\ s = o ++ u.
Proof. exact (order_groups s o u). Qed.
Print Assumptions C95_order.

Theorem C95_caret s o u :
  (exists cs, text_fullmatch CARET_SPECIFICATION_PATTERN s = Some (Some cs) /\ group_of (lit "operator") cs = Some o /\ group_of (lit "version") cs = Some u)
  <-> In o (map lit ["^"]%string) /\ (exists v, tree v /\ g_local v = None /\ text v = u) /\ s = o ++ u.
Proof. exact (caret_groups s o u). Qed.
Print Assumptions C95_caret.

Theorem C95_tilde s o u :
  (exists cs, text_fullmatch TILDE_SPECIFICATION_PATTERN s = Some (Some cs) /\ group_of (lit "operator") cs = Some o /\ group_of (lit "version") cs = Some u)
  <-> In o (map lit ["~="; "~"]%string) /\ (exists v, tree v /\ g_local v = None /\ text v = u) /\ s = o ++ u.
Proof. exact (tilde_groups s o u). Qed.
Print Assumptions C95_tilde.

Theorem C95_equal s o u :
  (exists cs, text_fullmatch EQUAL_SPECIFICATION_PATTERN s = Some (Some cs) /\ group_of (lit "operator") cs = o /\ group_of (lit "version") cs = Some u)
  <-> opt (fun o => In o (map lit ["=="; "="; "!="]%string)) o /\ (exists v, tree v /\ text v = u) /\ s = spell (fun o => o) o ++ u.
Proof. exact (equal_groups s o u). Qed.
Print Assumptions C95_equal.

Theorem C95_wildcard s o u :
  (exists cs, text_fullmatch WILDCARD_SPECIFICATION_PATTERN s = Some (Some cs) /\ group_of (lit "operator") cs = o /\ group_of (lit "version") cs = Some u)
  <-> opt (fun o => In o (map lit ["=="; "="; "!="]%string)) o
      /\ (exists c v w, (c = 42 \/ c = 120 \/ c = 88)%N /\ wild c v w /\ tree v /\ text w = u) /\ s = spell (fun o => o) o ++ u.
Proof. exact (wildcard_groups s o u). Qed.
Print Assumptions C95_wildcard.

Theorem C95_wildcard_version s : (exists cs, text_fullmatch WILDCARD_VERSION_PATTERN s = Some (Some cs))
  <-> exists c t u, (c = 42 \/ c = 120 \/ c = 88)%N /\ wild c t u /\ tree t /\ text u = s.
Proof. exact (wildcard_language s). Qed.
Print Assumptions C95_wildcard_version.

Theorem C95_operator_captured t s cs : In t [ORDER_SPECIFICATION_PATTERN; CARET_SPECIFICATION_PATTERN; TILDE_SPECIFICATION_PATTERN] ->
  text_fullmatch t s = Some (Some cs) -> group_of (lit "operator") cs <> None /\ group_of (lit "version") cs <> None.
Proof. exact (operator_captured t s cs). Qed.
Print Assumptions C95_operator_captured.

Theorem C95_version_captured t s cs : In t [EQUAL_SPECIFICATION_PATTERN; WILDCARD_SPECIFICATION_PATTERN] ->
  text_fullmatch t s = Some (Some cs) -> group_of (lit "version") cs <> None.
Proof. exact (version_captured t s cs). Qed.
Print Assumptions C95_version_captured.

Example C95_case :
  option_map (option_map (fun cs => (group_of (lit "operator") cs, group_of (lit "version") cs))) (text_fullmatch TILDE_SPECIFICATION_PATTERN (lit "~=1.4-2"))
    = Some (Some (Some (lit "~="), Some (lit "1.4-2")))
  /\ option_map (option_map (fun cs => (group_of (lit "operator") cs, group_of (lit "version") cs))) (text_fullmatch WILDCARD_SPECIFICATION_PATTERN (lit "1.4.X"))
    = Some (Some (None, Some (lit "1.4.X")))
  /\ text_fullmatch ORDER_SPECIFICATION_PATTERN (lit ">1.0+local") = Some None
  /\ option_map (option_map (group_of (lit "local"))) (text_fullmatch EQUAL_SPECIFICATION_PATTERN (lit "!=1.0+local")) = Some (Some (Some (lit "local"))).
Proof. now vm_compute. Qed.
