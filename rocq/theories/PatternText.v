(** The texts of the regular expressions of [versions/patterns.py]: the strings
    given to [re.compile], before anything is known about what they match.  The
    f-strings are quoted as they stand in the source, braces included, and
    [fstring] fills them in. *)

From Coq Require Import List ZArith NArith String Bool.
From Verif Require Import Py Segments Regex.
Import ListNotations.

(** constants.py:111-118, 126-137, 145-148, 157: the punctuation and the literals the patterns use *)
Definition t_DASH := lit "-".
Definition t_DOT := lit ".".
Definition t_EXCLAMATION := lit "!".
Definition t_PIPE := lit "|".
Definition t_PLUS := lit "+".
Definition t_STAR := lit "*".
Definition t_QUESTION := lit "?".
Definition t_UNDER := lit "_".
Definition t_TILDE_EQUAL := lit "~=".
Definition t_DOUBLE_EQUAL := lit "==".
Definition t_NOT_EQUAL := lit "!=".
Definition t_LESS_OR_EQUAL := lit "<=".
Definition t_GREATER_OR_EQUAL := lit ">=".
Definition t_LESS := lit "<".
Definition t_GREATER := lit ">".
Definition t_CARET := lit "^".
Definition t_EQUAL := lit "=".
Definition t_TILDE := lit "~".
Definition t_V_LITERAL := lit "v".
Definition t_X_LITERAL := lit "x".
Definition t_SQUARE_BRACKETS := lit "[]".

(** constants.py:123 *)
Definition t_SEPARATORS := [t_DOT; t_DASH; t_UNDER].

(** string.py:129-136, [create_wrap_around]: a wrap of other than two characters
    raises [ValueError] *)
Definition create_wrap_around (s wrap : pstr) : result pstr :=
  match wrap with
  | [l; r] => Ok ([l] ++ s ++ [r])
  | _ => Err ValueError
  end.

(** [re.escape]: a backslash before each of [()[]{}?*+-|^$\.&~#] and before
    each of the six blank characters of ASCII *)
Definition re_special : list N :=
  [40; 41; 91; 93; 123; 125; 63; 42; 43; 45; 124; 94; 36; 92; 46; 38; 126; 35; 32; 9; 10; 13; 11; 12]%N.

Fixpoint re_escape (s : pstr) : pstr :=
  match s with
  | [] => []
  | c :: s' => (if existsb (N.eqb c) re_special then [92%N; c] else [c]) ++ re_escape s'
  end.

(** patterns.py:82-93, string.py:92-101, 112, 116 *)
Definition COMBINE (ss : list pstr) : pstr := join [] ss.
Definition UNION (ss : list pstr) : pstr := join t_PIPE ss.
Definition OPTIONAL (s : pstr) : pstr := s ++ t_QUESTION.

(** patterns.py:96-97.  The wrap is a constant of two characters, so the error
    case is not reached; it is kept as an empty text. *)
Definition SET (s : pstr) : pstr :=
  match create_wrap_around s t_SQUARE_BRACKETS with Ok t => t | Err _ => [] end.

(** patterns.py:102-106 *)
Definition t_ALPHA_DIGIT := lit "[a-z0-9]".
Definition t_ALPHA := lit "[a-z]".
Definition t_DIGIT := lit "[0-9]".
Definition t_SEPARATOR := SET (re_escape (COMBINE t_SEPARATORS)).

(** patterns.py:112-133, 206-207: the names of the groups *)
Definition group_name (g : group) : pstr :=
  match g with
  | G_EPOCH => lit "epoch"
  | G_RELEASE => lit "release"
  | G_PHASE => lit "phase"
  | G_VALUE => lit "value"
  | G_PRE => lit "pre"
  | G_PRE_PHASE => lit "pre_phase"
  | G_PRE_VALUE => lit "pre_value"
  | G_POST_IMPLICIT => lit "post_implicit"
  | G_POST => lit "post"
  | G_POST_PHASE => lit "post_phase"
  | G_POST_VALUE => lit "post_value"
  | G_DEV => lit "dev"
  | G_DEV_PHASE => lit "dev_phase"
  | G_DEV_VALUE => lit "dev_value"
  | G_LOCAL => lit "local"
  | G_OPERATOR => lit "operator"
  | G_VERSION => lit "version"
  end.

(** patterns.py:214 *)
Definition t_WILDCARD := UNION [t_X_LITERAL; re_escape t_STAR].

(** The values of the expressions between braces in the f-strings of
    patterns.py:137-302. *)
Definition expressions : list (pstr * pstr) := [
  (lit "PHASE", group_name G_PHASE);
  (lit "VALUE", group_name G_VALUE);
  (lit "EPOCH", group_name G_EPOCH);
  (lit "RELEASE", group_name G_RELEASE);
  (lit "PRE", group_name G_PRE);
  (lit "PRE_PHASE", group_name G_PRE_PHASE);
  (lit "PRE_VALUE", group_name G_PRE_VALUE);
  (lit "POST_IMPLICIT", group_name G_POST_IMPLICIT);
  (lit "POST", group_name G_POST);
  (lit "POST_PHASE", group_name G_POST_PHASE);
  (lit "POST_VALUE", group_name G_POST_VALUE);
  (lit "DEV", group_name G_DEV);
  (lit "DEV_PHASE", group_name G_DEV_PHASE);
  (lit "DEV_VALUE", group_name G_DEV_VALUE);
  (lit "LOCAL", group_name G_LOCAL);
  (lit "ALPHA", t_ALPHA);
  (lit "DIGIT", t_DIGIT);
  (lit "ALPHA_DIGIT", t_ALPHA_DIGIT);
  (lit "SEPARATOR", t_SEPARATOR);
  (lit "V_LITERAL", t_V_LITERAL);
  (lit "DASH", t_DASH);
  (lit "WILDCARD", t_WILDCARD);
  (lit "ESCAPE(EXCLAMATION)", re_escape t_EXCLAMATION);
  (lit "ESCAPE(DOT)", re_escape t_DOT);
  (lit "ESCAPE(PLUS)", re_escape t_PLUS);
  (lit "UNION_ITERABLE(PRE_PHASES)", UNION PRE_PHASES);
  (lit "UNION_ITERABLE(POST_PHASES)", UNION POST_PHASES);
  (lit "UNION_ITERABLE(DEV_PHASES)", UNION DEV_PHASES)
].

Fixpoint evaluate (e : pstr) (table : list (pstr * pstr)) : option pstr :=
  match table with
  | [] => None
  | (e', v) :: table' => if str_eqb e e' then Some v else evaluate e table'
  end.

(** An f-string: what stands between braces is replaced by its value.  [inside]
    holds the expression being read, backwards.  An expression without a value
    is left out, braces included; none occurs. *)
Fixpoint filled (s : pstr) (inside : option pstr) : pstr :=
  match s, inside with
  | [], _ => []
  | c :: s', None => if (c =? 123)%N then filled s' (Some []) else c :: filled s' None
  | c :: s', Some e =>
      if (c =? 125)%N
      then match evaluate (rev e) expressions with Some v => v | None => [] end ++ filled s' None
      else filled s' (Some (c :: e))
  end.

Definition fstring (s : string) : pstr := filled (lit s) None.

(** [template.format(argument)] with one argument: [{}] is replaced by it, and
    a doubled brace stands for a brace. *)
Fixpoint format_one (template argument : pstr) : pstr :=
  match template with
  | [] => []
  | c :: t =>
      match t with
      | d :: t' =>
          if (c =? 123)%N && (d =? 125)%N then argument ++ format_one t' argument
          else if (c =? 123)%N && (d =? 123)%N || (c =? 125)%N && (d =? 125)%N then c :: format_one t' argument
          else c :: format_one t argument
      | [] => [c]
      end
  end.

(** patterns.py:137 *)
Definition TAG_PATTERN : pstr := fstring
"^(?P<{PHASE}>{ALPHA}+)(?:{SEPARATOR}?(?P<{VALUE}>{DIGIT}+))?$".

(** patterns.py:142-190 *)
Definition PUBLIC_VERSION_PATTERN : pstr := fstring
"
    {V_LITERAL}?

    (?:
        (?P<{EPOCH}>{DIGIT}+){ESCAPE(EXCLAMATION)}
    )?

    (?P<{RELEASE}>{DIGIT}+(?:{ESCAPE(DOT)}{DIGIT}+)*)

    (?:
        {SEPARATOR}?

        (?P<{PRE}>
            (?P<{PRE_PHASE}>{UNION_ITERABLE(PRE_PHASES)})
            (?:
                {SEPARATOR}?
                (?P<{PRE_VALUE}>{DIGIT}+)
            )?
        )
    )?

    (?:
        (?:{DASH}(?P<{POST_IMPLICIT}>{DIGIT}+))
        |
        (?:
            {SEPARATOR}?

            (?P<{POST}>
                (?P<{POST_PHASE}>{UNION_ITERABLE(POST_PHASES)})
                (?:
                    {SEPARATOR}?
                    (?P<{POST_VALUE}>{DIGIT}+)
                )?
            )
        )
    )?

    (?:
        {SEPARATOR}?

        (?P<{DEV}>
            (?P<{DEV_PHASE}>{UNION_ITERABLE(DEV_PHASES)})
            (?:
                {SEPARATOR}?
                (?P<{DEV_VALUE}>{DIGIT}+)
            )?
        )
    )?
".

(** patterns.py:194-198 *)
Definition LOCAL_PATTERN : pstr := fstring
"
    (?:
        {ESCAPE(PLUS)}(?P<{LOCAL}>{ALPHA_DIGIT}+(?:{SEPARATOR}{ALPHA_DIGIT}+)*)
    )?
".

(** patterns.py:200 *)
Definition VERSION_PATTERN : pstr := COMBINE [PUBLIC_VERSION_PATTERN; LOCAL_PATTERN].

(** patterns.py:209-212 *)
Definition CREATE_GROUP (name : pstr) : pstr := format_one (lit "(?P<{}>{{}})") name.
Definition OPERATOR_GROUP (s : pstr) : pstr := format_one (CREATE_GROUP (group_name G_OPERATOR)) s.
Definition VERSION_GROUP (s : pstr) : pstr := format_one (CREATE_GROUP (group_name G_VERSION)) s.

(** patterns.py:216-302 *)
Definition WILDCARD_VERSION_PATTERN : pstr := fstring
"
    {V_LITERAL}?

    (?:
        (?:{DIGIT}+){ESCAPE(EXCLAMATION)}
    )?

    (?:
        (?:{WILDCARD})
        |
        (?:
            (?:{DIGIT}+(?:{ESCAPE(DOT)}{DIGIT}+)*)

            (?:
                (?:{ESCAPE(DOT)}(?:{WILDCARD}))
                |
                (?:
                    (?:
                        {SEPARATOR}?

                        (?:
                            (?:{UNION_ITERABLE(PRE_PHASES)})
                            {SEPARATOR}?
                            (?:{WILDCARD})
                        )
                    )
                    |
                    (?:
                        (?:
                            {SEPARATOR}?

                            (?:
                                (?:{UNION_ITERABLE(PRE_PHASES)})
                                (?:
                                    {SEPARATOR}?
                                    (?:{DIGIT}+)
                                )?
                            )
                        )?
                        (?:
                            (?:
                                (?:{DASH}(?:{WILDCARD}))
                                |
                                (?:
                                    {SEPARATOR}?

                                    (?:
                                        (?:{UNION_ITERABLE(POST_PHASES)})
                                        {SEPARATOR}?
                                        (?:{WILDCARD})
                                    )
                                )
                            )
                            |
                            (?:
                                (?:
                                    (?:{DASH}(?:{DIGIT}+))
                                    |
                                    (?:
                                        {SEPARATOR}?

                                        (?:
                                            (?:{UNION_ITERABLE(POST_PHASES)})
                                            (?:
                                                {SEPARATOR}?
                                                (?:{DIGIT}+)
                                            )?
                                        )
                                    )
                                )?
                                (?:
                                    {SEPARATOR}?

                                    (?:
                                        (?:{UNION_ITERABLE(DEV_PHASES)})
                                        {SEPARATOR}?
                                        (?:{WILDCARD})
                                    )
                                )
                            )
                        )
                    )
                )
            )
        )
    )
".

(** patterns.py:306-309 *)
Definition WILDCARD_SPECIFICATION_PATTERN : pstr :=
  COMBINE [OPTIONAL (OPERATOR_GROUP (UNION [t_DOUBLE_EQUAL; t_EQUAL; t_NOT_EQUAL]));
           VERSION_GROUP WILDCARD_VERSION_PATTERN].

(** patterns.py:313-316 *)
Definition ORDER_SPECIFICATION_PATTERN : pstr :=
  COMBINE [OPERATOR_GROUP (UNION [t_LESS_OR_EQUAL; t_GREATER_OR_EQUAL; t_LESS; t_GREATER]);
           VERSION_GROUP PUBLIC_VERSION_PATTERN].

(** patterns.py:320-322 *)
Definition CARET_SPECIFICATION_PATTERN : pstr :=
  COMBINE [OPERATOR_GROUP (re_escape t_CARET); VERSION_GROUP PUBLIC_VERSION_PATTERN].

(** patterns.py:326-328 *)
Definition TILDE_SPECIFICATION_PATTERN : pstr :=
  COMBINE [OPERATOR_GROUP (UNION [t_TILDE_EQUAL; t_TILDE]); VERSION_GROUP PUBLIC_VERSION_PATTERN].

(** patterns.py:332-335 *)
Definition EQUAL_SPECIFICATION_PATTERN : pstr :=
  COMBINE [OPTIONAL (OPERATOR_GROUP (UNION [t_DOUBLE_EQUAL; t_EQUAL; t_NOT_EQUAL]));
           VERSION_GROUP VERSION_PATTERN].
