(** What the messages of failed parsing are meant to say, in terms of the
    grammar. *)

From Coq Require Import List ZArith NArith String Bool.
From Verif Require Import Py Segments Version Operators Grammar Clauses.
Import ListNotations.

Definition class_called (c : tag_class) : pstr :=
  match c with AnyTag => lit "Tag" | PreTag => lit "PreTag" | PostTag => lit "PostTag" | DevTag => lit "DevTag" end.

Definition cannot_parse (s name : pstr) : pstr := lit "can not parse `" ++ s ++ lit "` to `" ++ name ++ lit "`".
Definition phase_refused (w : pstr) (c : tag_class) : pstr := lit "phase `" ++ w ++ lit "` is not allowed in `" ++ class_called c ++ lit "`".
Definition one_segment : pstr := lit "`~=` can not be used with with a single version segment".

(** The first word of [t] that is not written in lower case, and the class of
    the tag it is in: pre-releases first, then post-releases, then development
    releases. *)
Definition pre_lower (t : gversion) : Prop := opt (lower_tag pre_words) (g_pre t).
Definition post_lower (t : gversion) : Prop :=
  opt (fun p => match p with Implicit _ => True | Explicit u => lower_tag post_words u end) (g_post t).
Definition first_capital (t : gversion) (w : pstr) (c : tag_class) : Prop :=
  (c = PreTag /\ exists u, g_pre t = Some u /\ g_word u = w /\ ~ In w pre_words)
  \/ (c = PostTag /\ pre_lower t /\ exists u, g_post t = Some (Explicit u) /\ g_word u = w /\ ~ In w post_words)
  \/ (c = DevTag /\ pre_lower t /\ post_lower t /\ exists u, g_dev t = Some u /\ g_word u = w /\ ~ In w dev_words).

(** The exception for a bad clause [c], and its message: it names the first
    capitalised word, the version with a capital wildcard, or the clause. *)
Definition complaint (name c : pstr) (e : error) (m : pstr) : Prop :=
  (e = ValueError /\ exists t v, clause c t v
     /\ ((exists w k, first_capital v w k /\ m = phase_refused w k)
         \/ (lower_case v /\ t = TILDE_EQUAL /\ g_more v = [] /\ m = one_segment)))
  \/ (e = ParseVersionError /\ exists o t v u, In (o, t) wild_ops /\ wild 88 v u /\ tree v /\ c = o ++ text u /\ m = cannot_parse (text u) name)
  \/ (e = ParseSpecificationError /\ (forall t v, ~ clause c t v) /\ ~ capital_wild c /\ m = cannot_parse c (lit "specification")).
