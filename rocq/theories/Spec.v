(** Specification vocabulary: small definitions, independent of the helpers
    of the model, in which the properties are stated. *)

From Coq Require Import List ZArith NArith String Bool.
From Verif Require Import Py Segments Version VersionSets Operators Specifiers Patterns.
Import ListNotations.
Open Scope Z_scope.

(** ** Versions *)

Definition nonneg_release (v : version) : Prop := Forall (fun x => 0 <= x) (v_release v).

Definition wf_tag (c : tag_class) (t : tag) : Prop := valid_tag c t = true /\ 0 <= value t.
Definition wf_otag (c : tag_class) (o : option tag) : Prop :=
  match o with None => True | Some t => wf_tag c t end.

(** A number, or a word of letters and digits that is not a number. *)
Definition wf_part (p : local_part) : Prop :=
  match p with
  | LInt z => 0 <= z
  | LStr s => forallb is_alnum s = true /\ existsb is_alpha s = true
  end.
Definition wf_local (o : option (list local_part)) : Prop :=
  match o with None => True | Some l => l <> [] /\ Forall wf_part l end.

(** Versions that can be written down. *)
Definition wf (v : version) : Prop :=
  0 <= v_epoch v /\ v_release v <> [] /\ nonneg_release v
  /\ wf_otag PreTag (v_pre v) /\ wf_otag PostTag (v_post v) /\ wf_otag DevTag (v_dev v)
  /\ wf_local (v_local v).

(** ** Order of versions *)

(** A release is read as an infinite sequence padded with zeros. *)
Definition part (r : list Z) (n : nat) : Z := nth n r 0.
Definition rel_same (r s : list Z) : Prop := forall n, part r n = part s n.
Definition rel_before (r s : list Z) : Prop :=
  exists n, (forall m, (m < n)%nat -> part r m = part s m) /\ part r n < part s n.

(** A development release of nothing, a pre-release, the release and what
    follows it. *)
Definition stage (v : version) : Z :=
  match v_pre v, v_post v, v_dev v with
  | Some _, _, _ => 1
  | None, None, Some _ => 0
  | None, _, _ => 2
  end.

(** Position of a phase among the phases of its kind. *)
Fixpoint position (p : pstr) (ps : list pstr) : Z :=
  match ps with
  | [] => 0
  | q :: ps' => if list_eq_dec N.eq_dec p q then 0 else 1 + position p ps'
  end.
Definition PHASE_ORDER : list pstr :=
  map lit ["alpha"; "beta"; "candidate"; "preview"; "rc"]%string.
Definition POST_ORDER : list pstr := map lit ["post"; "rev"]%string.

Definition tag_before (order : list pstr) (t u : tag) : Prop :=
  position (phase t) order < position (phase u) order
  \/ phase t = phase u /\ value t < value u.

(** [None] below every tag. *)
Definition none_first (lt : tag -> tag -> Prop) (t u : option tag) : Prop :=
  match t, u with
  | None, Some _ => True
  | Some t, Some u => lt t u
  | _, None => False
  end.
(** [None] above every tag. *)
Definition none_last (lt : tag -> tag -> Prop) (t u : option tag) : Prop :=
  match t, u with
  | Some _, None => True
  | Some t, Some u => lt t u
  | None, _ => False
  end.

(** Dictionary order. *)
Definition dict_before {A} (lt : A -> A -> Prop) (l m : list A) : Prop :=
  (exists b m', m = l ++ b :: m')
  \/ (exists p a b l' m', l = p ++ a :: l' /\ m = p ++ b :: m' /\ lt a b).

(** Words below numbers. *)
Definition part_before (p q : local_part) : Prop :=
  match p, q with
  | LStr _, LInt _ => True
  | LInt _, LStr _ => False
  | LInt x, LInt y => x < y
  | LStr s, LStr t => dict_before N.lt s t
  end.
Definition local_before (l m : option (list local_part)) : Prop :=
  match l, m with
  | None, Some _ => True
  | Some l, Some m => dict_before part_before l m
  | _, None => False
  end.

Definition before (v w : version) : Prop :=
  v_epoch v < v_epoch w \/ v_epoch v = v_epoch w /\ (
  rel_before (v_release v) (v_release w) \/ rel_same (v_release v) (v_release w) /\ (
  stage v < stage w \/ stage v = stage w /\ (
  none_first (tag_before PHASE_ORDER) (v_pre v) (v_pre w) \/ v_pre v = v_pre w /\ (
  none_first (tag_before POST_ORDER) (v_post v) (v_post w) \/ v_post v = v_post w /\ (
  none_last (tag_before []) (v_dev v) (v_dev w) \/ v_dev v = v_dev w /\
  local_before (v_local v) (v_local w)))))).

Definition same (v w : version) : Prop :=
  v_epoch v = v_epoch w /\ rel_same (v_release v) (v_release w)
  /\ v_pre v = v_pre w /\ v_post v = v_post w /\ v_dev v = v_dev w /\ v_local v = v_local w.

(** ** Sets of versions *)

Definition above_min (m : option version) (included : bool) (v : version) : Prop :=
  match m with
  | None => True
  | Some m => if included then v_le m v = true else v_lt m v = true
  end.
Definition below_max (m : option version) (included : bool) (v : version) : Prop :=
  match m with
  | None => True
  | Some m => if included then v_le v m = true else v_lt v m = true
  end.

Definition in_item (i : item) (v : version) : Prop :=
  match i with
  | Point w => v_eq w v = true
  | Range min max imin imax => above_min min imin v /\ below_max max imax v
  end.
Definition in_set (a : vset) (v : version) : Prop :=
  match a with
  | Empty => False
  | Item i => in_item i v
  | Union items => Exists (fun i => in_item i v) items
  end.

(** A point, or a range whose minimum is below its maximum and whose missing
    bounds are not included. *)
Definition good_item (i : item) : Prop :=
  match i with
  | Point _ => True
  | Range min max imin imax =>
      (min = None -> imin = false) /\ (max = None -> imax = false)
      /\ match min, max with Some m, Some M => v_lt m M = true | _, _ => True end
  end.

(** [x] ends before [y] begins, and they do not touch. *)
Definition separated (x y : item) : Prop :=
  match i_max x, i_min y with
  | Some M, Some m =>
      v_lt M m = true
      \/ v_eq M m = true /\ i_include_max x = false /\ i_include_min y = false
  | _, _ => False
  end.

Fixpoint good_items (items : list item) : Prop :=
  match items with
  | [] => True
  | [x] => good_item x
  | x :: ((y :: _) as rest) => good_item x /\ separated x y /\ good_items rest
  end.

(** Canonical sets: what parsing and the operations produce. *)
Definition canonical (a : vset) : Prop :=
  match a with
  | Empty => True
  | Item i => good_item i
  | Union items => good_items items /\ (2 <= List.length items)%nat
  end.

(** The minimum and maximum versions mentioned by a set. *)
Definition item_bounds (i : item) : list version :=
  match i with
  | Point v => [v]
  | Range min max _ _ =>
      match min with Some m => [m] | None => [] end ++ match max with Some m => [m] | None => [] end
  end.
Definition bounds (a : vset) : list version :=
  match a with
  | Empty => []
  | Item i => item_bounds i
  | Union items => flat_map item_bounds items
  end.

(** Versions whose local segment is made of integers and words. *)
Definition worded (v : version) : Prop :=
  valid_version v = true
  /\ match v_local v with
     | None => True
     | Some l => Forall (fun p => match p with LInt _ => True | LStr _ => wf_part p end) l
     end.

(** The lowest version that can be written, 0.dev0. *)
Definition lowest : version := Version 0 [0] None None (Some (Tag (lit "dev") 0)) None.

(** ** Where the code departs from set theory *)

(** [r] is a range that starts just after [v]. *)
Definition starts_after (r : item) (v : version) : Prop :=
  match r with Range (Some m) _ false _ => v_eq m v = true | _ => False end.

(** [x] is a range that has [v] among its members or as its excluded maximum. *)
Definition reaches (x : item) (v : version) : Prop :=
  match x with
  | Point _ => False
  | Range min max imin _ => above_min min imin v /\ below_max max true v
  end.

(** Items on which merging recurses for ever: a point and a range starting
    just after it, and no range reaching the point. *)
Definition clash (items : list item) : Prop :=
  exists v r, In (Point v) items /\ In r items /\ starts_after r v
    /\ forall x, In x items -> ~ reaches x v.

(** Arguments on which [union] recurses for ever. *)
Definition union_clash (a b : vset) : Prop :=
  match a, b with
  | Empty, _ | _, Empty => False
  | Item (Point v), Item o => starts_after o v
  | Item _, Item _ => False
  | _, _ => clash (extract a ++ extract b)
  end.

(** Every version of [s] is in [x], by bounds. *)
Definition covers_item (x s : item) : Prop :=
  match i_min x, i_min s with
  | None, _ => True
  | Some _, None => False
  | Some m, Some n => v_lt m n = true \/ v_eq m n = true /\ (i_include_min x = true \/ i_include_min s = false)
  end
  /\ match i_max x, i_max s with
  | None, _ => True
  | Some _, None => False
  | Some m, Some n => v_lt n m = true \/ v_eq m n = true /\ (i_include_max x = true \/ i_include_max s = false)
  end.

(** A range lying inside one item of a union: [difference] returns the range. *)
Definition difference_unchanged (a b : vset) : Prop :=
  match a, b with
  | Item (Range _ _ _ _ as s), Union items => Exists (fun x => covers_item x s) items
  | _, _ => False
  end.

(** A union minus the empty set: [difference] returns the empty set. *)
Definition difference_lost (a b : vset) : Prop :=
  match a, b with Union _, Empty => True | _, _ => False end.

(** ** Expressions over sets *)

Inductive sexp :=
| SVar (n : nat)
| SAnd (e f : sexp)
| SOr (e f : sexp)
| SNot (e : sexp).

(** Truth value when each variable says whether the version is a member. *)
Fixpoint truth (rho : nat -> bool) (e : sexp) : bool :=
  match e with
  | SVar n => rho n
  | SAnd e f => truth rho e && truth rho f
  | SOr e f => truth rho e || truth rho f
  | SNot e => negb (truth rho e)
  end.

(** The result of the corresponding method calls. *)
Fixpoint eval (env : nat -> vset) (e : sexp) : result vset :=
  match e with
  | SVar n => Ok (env n)
  | SAnd e f => bind (eval env e) (fun a => bind (eval env f) (fun b => intersection a b))
  | SOr e f => bind (eval env e) (fun a => bind (eval env f) (fun b => union a b))
  | SNot e => bind (eval env e) complement
  end.

Fixpoint no_or (e : sexp) : bool :=
  match e with
  | SVar _ => true
  | SAnd e f => no_or e && no_or f
  | SOr _ _ => false
  | SNot e => no_or e
  end.

(** An item accepted by the constructors. *)
Definition made (i : item) : Prop :=
  match i with
  | Point _ => True
  | Range min max imin imax => range_new min max imin imax = Ok i
  end.

(** ** Updates *)

(** The release [r'] is [r] with part [i] increased and the later parts zero. *)
Definition bumped (r : list Z) (i : nat) (r' : list Z) : Prop :=
  List.length r' = Nat.max (List.length r) (S i)
  /\ forall n, part r' n = if (n <? i)%nat then part r n else if (n =? i)%nat then part r i + 1 else 0.

(** Only epoch and release. *)
Definition bare (e : Z) (r : list Z) : version := Version e r None None None None.

(** Development releases of post-releases, such as 1.0.post1.dev0. *)
Definition post_dev (v : version) : Prop := v_pre v = None /\ v_post v <> None /\ v_dev v <> None.

(** Which of major, minor and micro breaks compatibility: the first that is not
    zero, else the last one written. *)
Definition breaking_index (r : list Z) : nat :=
  match r with
  | a :: b :: c :: _ => if a =? 0 then if b =? 0 then 2 else 1 else 0
  | a :: b :: [] => if a =? 0 then 1 else 0
  | _ => 0
  end.

(** ** Operators *)

(** No pre-release and no development tag. *)
Definition final (v : version) : Prop := v_pre v = None /\ v_dev v = None.

(** The first version that an operator with version [w] excludes. *)
Definition caret_upper (w u : version) : Prop :=
  exists r, u = bare (v_epoch w) r
    /\ (final w -> bumped (v_release w) (breaking_index (v_release w)) r)
    /\ (~ final w -> part (v_release w) 0 = 0 -> r = v_release w)
    /\ (~ final w -> part (v_release w) 0 <> 0 -> bumped (v_release w) 0 r).
Definition tilde_upper (w u : version) : Prop :=
  exists r, u = bare (v_epoch w) r
    /\ (final w -> bumped (v_release w) (Nat.min 1 (List.length (v_release w) - 1)) r)
    /\ (~ final w -> r = v_release w).
Definition tilde_equal_upper (w u : version) : Prop :=
  exists r, u = bare (v_epoch w) r /\ bumped (v_release w) (List.length (v_release w) - 2) r.
Definition wildcard_upper (w u : version) : Prop :=
  exists r, u = bare (v_epoch w) r
    /\ (final w -> v_post w = None -> bumped (v_release w) (List.length (v_release w) - 2) r)
    /\ (final w -> v_post w <> None -> bumped (v_release w) (List.length (v_release w) - 1) r)
    /\ (~ final w -> r = v_release w).
(** The wildcard stands for the whole release. *)
Definition wildcard_any (w : version) : Prop :=
  final w /\ v_post w = None /\ (List.length (v_release w) = 1)%nat.

(** From [w] on, up to but not including the given bound. *)
Definition from_to (upper : version -> version -> Prop) (w v : version) : Prop :=
  v_le w v = true /\ exists u, upper w u /\ v_lt v u = true.

(** [v] satisfies the operator [t] with version [w]. *)
Definition op_sat (t : op_type) (w v : version) : Prop :=
  match t with
  | CARET => from_to caret_upper w v
  | TILDE => from_to tilde_upper w v
  | TILDE_EQUAL => from_to tilde_equal_upper w v
  | EQUAL | DOUBLE_EQUAL => v_eq v w = true
  | NOT_EQUAL => v_eq v w = false
  | LESS => v_lt v w = true
  | LESS_OR_EQUAL => v_le v w = true
  | GREATER => v_lt w v = true
  | GREATER_OR_EQUAL => v_le w v = true
  | WILDCARD_EQUAL | WILDCARD_DOUBLE_EQUAL => wildcard_any w \/ from_to wildcard_upper w v
  | WILDCARD_NOT_EQUAL => ~ (wildcard_any w \/ from_to wildcard_upper w v)
  end.

(** What the constructor of operators accepts. *)
Definition op_made (t : op_type) (w : version) : Prop :=
  valid_version w = true /\ (t = TILDE_EQUAL -> (2 <= List.length (v_release w))%nat).

(** Operators whose excluded bound lies below their version. *)
Definition op_stuck (t : op_type) (w : version) : Prop :=
  match t with
  | CARET => post_dev w /\ part (v_release w) 0 = 0
  | TILDE | WILDCARD_EQUAL | WILDCARD_DOUBLE_EQUAL | WILDCARD_NOT_EQUAL => post_dev w
  | _ => False
  end.

(** The release [s] begins with the parts of [r]. *)
Definition starts_with (s r : list Z) : Prop := forall n, (n < List.length r)%nat -> part s n = part r n.

(** Before the release itself. *)
Definition early (v : version) : Prop := stage v < 2.

(** ** Specifiers *)

Fixpoint sat (s : spec) (v : version) : Prop :=
  match s with
  | Never => False
  | Always => True
  | One t w => op_sat t w v
  | AnyOf ss => (fix any ss := match ss with [] => False | s :: ss' => sat s v \/ any ss' end) ss
  | AllOf ss => (fix all ss := match ss with [] => True | s :: ss' => sat s v /\ all ss' end) ss
  end.

(** [P] holds of every operator in a specifier. *)
Fixpoint each_op (P : op_type -> version -> Prop) (s : spec) : Prop :=
  match s with
  | Never | Always => True
  | One t w => P t w
  | AnyOf ss | AllOf ss => (fix all ss := match ss with [] => True | s :: ss' => each_op P s /\ all ss' end) ss
  end.

(** What the constructors accept: at least two members. *)
Fixpoint spec_made (s : spec) : Prop :=
  match s with
  | Never | Always => True
  | One t w => op_made t w
  | AnyOf ss | AllOf ss =>
      (2 <= List.length ss)%nat
      /\ (fix all ss := match ss with [] => True | s :: ss' => spec_made s /\ all ss' end) ss
  end.

Fixpoint no_any (s : spec) : Prop :=
  match s with
  | Never | Always | One _ _ => True
  | AnyOf ss => False
  | AllOf ss => (fix all ss := match ss with [] => True | s :: ss' => no_any s /\ all ss' end) ss
  end.

(** Operators that stand for half-open ranges, closed below and open above. *)
Definition half_open_op (t : op_type) (w : version) : Prop :=
  match t with
  | EQUAL | DOUBLE_EQUAL | NOT_EQUAL | LESS_OR_EQUAL | GREATER => False
  | _ => True
  end.

(** Operators whose bound does not depend on how many parts are written. *)
Definition op_lax (t : op_type) (w : version) : Prop :=
  match t with
  | TILDE_EQUAL => False
  | CARET => ~ final w \/ part (v_release w) 0 <> 0
  | TILDE | WILDCARD_EQUAL | WILDCARD_DOUBLE_EQUAL | WILDCARD_NOT_EQUAL => ~ final w
  | _ => True
  end.

(** Two trees of the same shape, with related operators at the leaves. *)
Inductive paired (R : op_type -> version -> op_type -> version -> Prop) : spec -> spec -> Prop :=
| paired_never : paired R Never Never
| paired_always : paired R Always Always
| paired_one t v t' v' : R t v t' v' -> paired R (One t v) (One t' v')
| paired_any ss us : Forall2 (paired R) ss us -> paired R (AnyOf ss) (AnyOf us)
| paired_all ss us : Forall2 (paired R) ss us -> paired R (AllOf ss) (AllOf us).

(** What an operator reads off the number of parts that are written. *)
Definition reach (t : op_type) (r : list Z) : nat :=
  match t with
  | CARET => breaking_index r
  | TILDE => Nat.min 1 (List.length r - 1)
  | _ => List.length r
  end.

(** Written precisely enough to mean the same. *)
Definition as_precise (t : op_type) (v : version) (t' : op_type) (v' : version) : Prop :=
  op_lax t v \/ reach t (v_release v) = reach t (v_release v').

(** Operators over releases without negative parts, and those that translate. *)
Definition plain_op (t : op_type) (w : version) : Prop := nonneg_release w.
Definition free_op (t : op_type) (w : version) : Prop := ~ op_stuck t w.

(** Outcomes that compare equal: equal sets, or the same exception. *)
Definition alike (r r' : result vset) : Prop :=
  match r, r' with
  | Ok a, Ok b => set_eqb a b = true
  | Err e, Err e' => e = e'
  | _, _ => False
  end.

(** An operator that occurs in a specifier. *)
Inductive leaf (t : op_type) (v : version) : spec -> Prop :=
| leaf_one : leaf t v (One t v)
| leaf_any s ss : In s ss -> leaf t v s -> leaf t v (AnyOf ss)
| leaf_all s ss : In s ss -> leaf t v s -> leaf t v (AllOf ss).

(** The bounds an operator may contribute: its version, and the first version
    it excludes. *)
Definition op_bound (t : op_type) (w u : version) : Prop :=
  u = w
  \/ match t with
     | CARET => caret_upper w u
     | TILDE => tilde_upper w u
     | TILDE_EQUAL => tilde_equal_upper w u
     | WILDCARD_EQUAL | WILDCARD_DOUBLE_EQUAL | WILDCARD_NOT_EQUAL => wildcard_upper w u
     | _ => False
     end.

(** The operators that compare, without shorthand for ranges. *)
Definition compares (t : op_type) : Prop :=
  match t with
  | DOUBLE_EQUAL | NOT_EQUAL | LESS | LESS_OR_EQUAL | GREATER | GREATER_OR_EQUAL => True
  | _ => False
  end.
