(** The documented grammar of version strings, independently of the regular
    expressions: trees, the strings they spell and the versions they denote.
    Only the types of the model are used. *)

From Coq Require Import List ZArith NArith String Bool.
From Verif Require Import Py Segments Version.
Import ListNotations.
Open Scope Z_scope.

(** ** Characters and words *)

Definition digit (c : N) : Prop := (48 <= c <= 57)%N.
Definition separator (c : N) : Prop := c = 46%N \/ c = 45%N \/ c = 95%N.

(** [c] is the lower case ASCII letter [a], ignoring case as Python does. *)
Definition folds (c a : N) : Prop :=
  c = a \/ ((65 <= c <= 90)%N /\ a = (c + 32)%N) \/ ((c = 304 \/ c = 305)%N /\ a = 105%N)
  \/ (c = 383%N /\ a = 115%N) \/ (c = 8490%N /\ a = 107%N).

Definition letter (c : N) : Prop := exists a, (97 <= a <= 122)%N /\ folds c a.

(** [w] is the word [p], ignoring case. *)
Definition spells (w p : pstr) : Prop := Forall2 folds w p.

Definition digits (d : pstr) : Prop := d <> [] /\ Forall digit d.
Definition alphanumeric (w : pstr) : Prop := w <> [] /\ Forall (fun c => digit c \/ letter c) w.

(** The number written by some digits. *)
Definition number (d : pstr) : Z := fold_left (fun n c => 10 * n + (Z.of_N c - 48)) d 0.

(** ** Trees *)

(** A word with an optional separator before it and an optional value, itself
    with an optional separator. *)
Record gtag := GTag { g_sep : option N; g_word : pstr; g_value : option (option N * pstr) }.

Inductive gpost := Implicit (d : pstr) | Explicit (t : gtag).

Record gversion := GVersion {
  g_v : option N;
  g_epoch : option pstr;
  g_first : pstr;
  g_more : list pstr;
  g_pre : option gtag;
  g_post : option gpost;
  g_dev : option gtag;
  g_local : option (pstr * list (N * pstr))
}.

Definition pre_words : list pstr := map lit ["alpha"; "a"; "beta"; "b"; "c"; "rc"; "preview"; "pre"]%string.
Definition post_words : list pstr := map lit ["post"; "rev"; "r"]%string.
Definition dev_words : list pstr := map lit ["dev"]%string.

Definition opt {A} (P : A -> Prop) (o : option A) : Prop := match o with None => True | Some a => P a end.

Definition tag_tree (words : list pstr) (t : gtag) : Prop :=
  opt separator (g_sep t) /\ (exists p, In p words /\ spells (g_word t) p)
  /\ opt (fun x => opt separator (fst x) /\ digits (snd x)) (g_value t).

Definition post_tree (p : gpost) : Prop :=
  match p with Implicit d => digits d | Explicit t => tag_tree post_words t end.

(** The grammar is ambiguous in one place: "a-1" is the pre-release a with the
    value 1, not the pre-release a followed by the post-release -1. *)
Definition greedy (t : gversion) : Prop :=
  match g_pre t, g_post t with
  | Some p, Some (Implicit _) => g_value p <> None
  | _, _ => True
  end.

Definition tree (t : gversion) : Prop :=
  opt (fun c => c = 118%N \/ c = 86%N) (g_v t) /\ opt digits (g_epoch t)
  /\ digits (g_first t) /\ Forall digits (g_more t)
  /\ opt (tag_tree pre_words) (g_pre t) /\ opt post_tree (g_post t) /\ opt (tag_tree dev_words) (g_dev t)
  /\ opt (fun l => alphanumeric (fst l) /\ Forall (fun x => separator (fst x) /\ alphanumeric (snd x)) (snd l)) (g_local t)
  /\ greedy t.

(** ** The string a tree spells *)

Definition one (o : option N) : pstr := match o with None => [] | Some c => [c] end.
Definition spell {A} (f : A -> pstr) (o : option A) : pstr := match o with None => [] | Some a => f a end.

Definition tag_word (t : gtag) : pstr := g_word t ++ spell (fun x => one (fst x) ++ snd x) (g_value t).
Definition tag_text (t : gtag) : pstr := one (g_sep t) ++ tag_word t.

Definition post_text (p : gpost) : pstr :=
  match p with Implicit d => 45%N :: d | Explicit t => tag_text t end.

Definition release_text (first : pstr) (more : list pstr) : pstr := first ++ List.concat (map (cons 46%N) more).
Definition local_text (l : pstr * list (N * pstr)) : pstr := fst l ++ List.concat (map (fun x => fst x :: snd x) (snd l)).

Definition public_text (t : gversion) : pstr :=
  one (g_v t) ++ spell (fun d => d ++ [33%N]) (g_epoch t) ++ release_text (g_first t) (g_more t)
  ++ spell tag_text (g_pre t) ++ spell post_text (g_post t) ++ spell tag_text (g_dev t).
Definition text (t : gversion) : pstr := public_text t ++ spell (fun l => 43%N :: local_text l) (g_local t).

(** ** The version a tree denotes *)

(** The phase a word stands for. *)
Definition long_forms : list (pstr * pstr) :=
  map (fun x => (lit (fst x), lit (snd x)))
    [("a", "alpha"); ("b", "beta"); ("c", "candidate"); ("pre", "preview"); ("r", "rev")]%string.
Definition long_form (w : pstr) : pstr :=
  match find (fun x => str_eqb (fst x) w) long_forms with Some x => snd x | None => w end.

Definition tag_reading (t : gtag) : tag :=
  Tag (long_form (g_word t)) match g_value t with None => 0 | Some (_, d) => number d end.
Definition post_reading (p : gpost) : tag :=
  match p with Implicit d => Tag (lit "post") (number d) | Explicit t => tag_reading t end.
Definition part_reading (w : pstr) : local_part :=
  if forallb (fun c => (48 <=? c) && (c <=? 57))%N w then LInt (number w) else LStr w.

Definition reading (t : gversion) : version :=
  Version match g_epoch t with None => 0 | Some d => number d end
    (map number (g_first t :: g_more t))
    (option_map tag_reading (g_pre t)) (option_map post_reading (g_post t)) (option_map tag_reading (g_dev t))
    (option_map (fun l => map part_reading (fst l :: map snd (snd l))) (g_local t)).

(** The words are written in lower case; the code refuses others. *)
Definition lower_tag (words : list pstr) (t : gtag) : Prop := In (g_word t) words.
Definition lower_case (t : gversion) : Prop :=
  opt (lower_tag pre_words) (g_pre t)
  /\ opt (fun p => match p with Implicit _ => True | Explicit t => lower_tag post_words t end) (g_post t)
  /\ opt (lower_tag dev_words) (g_dev t).

(** ** Spelling variants *)

(** The same digits up to leading zeros. *)
Definition same_number (d e : pstr) : Prop :=
  exists k m c, d = repeat 48%N k ++ c /\ e = repeat 48%N m ++ c.

(** The same word, or its short and its long form. *)
Definition short_forms : list (pstr * pstr) :=
  map (fun x => (lit (fst x), lit (snd x))) [("a", "alpha"); ("b", "beta"); ("pre", "preview"); ("r", "rev")]%string.
Definition same_word (w w' : pstr) : Prop := w = w' \/ In (w, w') short_forms \/ In (w', w) short_forms.

(** A missing value is 0; separators do not matter. *)
Definition no_digits (x : option (option N * pstr)) : pstr := match x with None => [] | Some (_, d) => d end.
Definition same_tag (t u : gtag) : Prop :=
  same_word (g_word t) (g_word u) /\ same_number (no_digits (g_value t)) (no_digits (g_value u)).

(** "-1" is ".post1". *)
Definition as_explicit (p : gpost) : gtag :=
  match p with Implicit d => GTag None (lit "post") (Some (None, d)) | Explicit t => t end.

Definition both {A} (R : A -> A -> Prop) (o o' : option A) : Prop :=
  match o, o' with None, None => True | Some a, Some b => R a b | _, _ => False end.

(** The separators of local parts do not matter, nor do leading zeros of its
    numbers. *)
Definition same_part (w w' : pstr) : Prop := w = w' \/ digits w /\ digits w' /\ same_number w w'.

Definition same_spelling (t u : gversion) : Prop :=
  same_number (spell (fun d => d) (g_epoch t)) (spell (fun d => d) (g_epoch u))
  /\ Forall2 same_number (g_first t :: g_more t) (g_first u :: g_more u)
  /\ both same_tag (g_pre t) (g_pre u)
  /\ both same_tag (option_map as_explicit (g_post t)) (option_map as_explicit (g_post u))
  /\ both same_tag (g_dev t) (g_dev u)
  /\ both (fun l m => Forall2 same_part (fst l :: map snd (snd l)) (fst m :: map snd (snd m))) (g_local t) (g_local u).

(** ** Normal phases *)

(** candidate and preview are rc, rev is post. *)
Definition normal_phase (p : pstr) : pstr :=
  if existsb (str_eqb p) (map lit ["candidate"; "preview"]%string) then lit "rc"
  else if str_eqb p (lit "rev") then lit "post" else p.
Definition normal_tag (t : tag) : tag := Tag (normal_phase (phase t)) (value t).
Definition normal_version (v : version) : version :=
  Version (v_epoch v) (v_release v) (option_map normal_tag (v_pre v)) (option_map normal_tag (v_post v))
    (option_map normal_tag (v_dev v)) (v_local v).
